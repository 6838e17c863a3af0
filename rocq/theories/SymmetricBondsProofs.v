(** Lemmas: permutations of the sites that preserve the bonds of a chain or grid preserve the Hamiltonians. *)
From Coq Require Import List ZArith Arith Bool Reals Lia Lra Permutation.
From Verif Require Import Base Cplx LatticeSpec.
Import ListNotations.
Local Open Scope R_scope.

(** [sigma] permutes the sites below [n] and preserves every symmetric sum over the bonds. *)
Definition bond_sum (f : nat -> nat -> R) (bonds : list (nat * nat)) : R := Rsum (fun b => f (fst b) (snd b)) bonds.
Definition symmetric2 (f : nat -> nat -> R) : Prop := forall a b, f a b = f b a.
Definition permutes_sites (n : nat) (sigma : nat -> nat) : Prop := Permutation (map sigma (seq 0 n)) (seq 0 n).
Definition preserves_bonds (bonds : list (nat * nat)) (sigma : nat -> nat) : Prop :=
  forall f, symmetric2 f -> bond_sum (fun a b => f (sigma a) (sigma b)) bonds = bond_sum f bonds.
Definition moves (n : nat) (sigma : nat -> nat) (s t : list Z) : Prop :=
  length s = n /\ length t = n /\ forall i, (i < n)%nat -> spin t i = spin s (sigma i).

Lemma permutes_lt n sigma i : permutes_sites n sigma -> (i < n)%nat -> (sigma i < n)%nat.
Proof.
  intros P Hi. assert (In (sigma i) (seq 0 n)); [|rewrite in_seq in H; lia].
  apply (Permutation_in _ P). apply in_map, in_seq. lia.
Qed.

Lemma permutes_inj n sigma i j : permutes_sites n sigma -> (i < n)%nat -> (j < n)%nat -> sigma i = sigma j -> i = j.
Proof.
  intros P Hi Hj E. assert (N : NoDup (map sigma (seq 0 n))) by (apply (Permutation_NoDup (Permutation_sym P)), seq_NoDup).
  rewrite NoDup_nth with (d := sigma 0%nat) in N. rewrite map_length, seq_length in N. apply (N i j Hi Hj).
  rewrite !map_nth, !seq_nth by assumption. exact E.
Qed.

Lemma permutes_onto n sigma j : permutes_sites n sigma -> (j < n)%nat -> exists i, (i < n)%nat /\ sigma i = j.
Proof.
  intros P Hj. assert (I : In j (map sigma (seq 0 n))) by (apply (Permutation_in _ (Permutation_sym P)), in_seq; lia).
  apply in_map_iff in I. destruct I as (i & E & Hi). apply in_seq in Hi. exists i. split; [lia|exact E].
Qed.

Lemma spin_ext s t : length s = length t -> (forall i, (i < length s)%nat -> spin s i = spin t i) -> s = t.
Proof. intros L E. apply (nth_ext s t 0%Z 0%Z L). exact E. Qed.

Lemma INR_hamming s : forall t, length s = length t ->
  INR (hamming s t) = Rsum (fun i => if (spin s i =? spin t i)%Z then 0 else 1) (seq 0 (length s)).
Proof.
  induction s as [|a s IH]; intros [|b t] L; try discriminate; [reflexivity|]. cbn [length] in *. injection L as L.
  change (seq 0 (S (length s))) with (0%nat :: seq 1 (length s)). rewrite Rsum_cons. rewrite <- seq_shift, Rsum_map.
  change (fun i => if (spin (a :: s) (S i) =? spin (b :: t) (S i))%Z then 0 else 1) with (fun i => if (spin s i =? spin t i)%Z then 0 else 1).
  rewrite <- (IH t L). cbn [hamming]. rewrite plus_INR. f_equal. unfold spin. cbn [nth]. destruct (a =? b)%Z; reflexivity.
Qed.

Lemma moves_hamming n sigma s s' t t' : permutes_sites n sigma -> moves n sigma s s' -> moves n sigma t t' -> hamming s' t' = hamming s t.
Proof.
  intros P (L1 & L2 & E1) (L3 & L4 & E2). apply INR_eq. rewrite !INR_hamming by congruence. rewrite L1, L2.
  rewrite (Rsum_ext _ (fun i => if (spin s (sigma i) =? spin t (sigma i))%Z then 0 else 1)).
  - rewrite <- (Rsum_map sigma (fun i => if (spin s i =? spin t i)%Z then 0 else 1)). now apply Rsum_perm.
  - intros i Hi. apply in_seq in Hi. rewrite E1, E2 by lia. reflexivity.
Qed.

Lemma moves_ising n sigma bonds J h s s' t t' : bonds_ok n bonds -> permutes_sites n sigma -> preserves_bonds bonds sigma ->
  moves n sigma s s' -> moves n sigma t t' -> ising_element J h bonds s' t' = ising_element J h bonds s t.
Proof.
  intros O P B M1 M2. unfold ising_element. rewrite (moves_hamming n sigma s s' t t' P M1 M2).
  destruct (hamming s t); [|reflexivity]. f_equal. destruct M1 as (_ & _ & E).
  transitivity (bond_sum (fun a b => IZR (spin s (sigma a) * spin s (sigma b))) bonds).
  - apply Rsum_ext. intros b Hb. unfold bonds_ok in O. rewrite Forall_forall in O. destruct (O b Hb) as (H1 & H2 & _). now rewrite !E.
  - apply (B (fun a b => IZR (spin s a * spin s b))). intros a b. f_equal. lia.
Qed.

Lemma IZR_Zsum {A} (f : A -> Z) l : IZR (Zsum f l) = Rsum (fun a => IZR (f a)) l.
Proof. induction l as [|a l IH]; [reflexivity|]. rewrite Rsum_cons, <- IH. cbn [Zsum fold_right]. now rewrite plus_IZR. Qed.

Lemma exchanged_iff n a b s t : length s = n -> length t = n ->
  (exchanged a b s t = true <->
   forall i, (i < n)%nat -> spin t i = if (i =? a)%nat then spin s b else if (i =? b)%nat then spin s a else spin s i).
Proof.
  intros L1 L2. unfold exchanged. rewrite L1, L2, Nat.eqb_refl. cbn [andb]. rewrite forallb_forall. split.
  - intros H i Hi. apply Z.eqb_eq. apply H, in_seq. lia.
  - intros H i Hi. apply in_seq in Hi. apply Z.eqb_eq. apply H. lia.
Qed.

Lemma exchanged_comm n a b s t : length s = n -> length t = n -> exchanged a b s t = exchanged b a s t.
Proof.
  intros L1 L2. apply eq_true_iff_eq. rewrite !(exchanged_iff n) by assumption. split; intros H i Hi; rewrite H by exact Hi.
  all: destruct (Nat.eqb_spec i a), (Nat.eqb_spec i b); subst; reflexivity.
Qed.

Lemma moves_exchanged n sigma a b s s' t t' : permutes_sites n sigma -> moves n sigma s s' -> moves n sigma t t' -> (a < n)%nat -> (b < n)%nat ->
  exchanged a b s' t' = exchanged (sigma a) (sigma b) s t.
Proof.
  intros P (L1 & L2 & E1) (L3 & L4 & E2) Ha Hb. apply eq_true_iff_eq. rewrite !(exchanged_iff n) by assumption.
  assert (Q : forall i c, (i < n)%nat -> (c < n)%nat -> (sigma i =? sigma c)%nat = (i =? c)%nat).
  { intros i c Hi Hc. destruct (Nat.eqb_spec i c) as [->|N]; [apply Nat.eqb_refl|]. apply Nat.eqb_neq. intros E. apply N.
    now apply (permutes_inj n sigma). }
  split.
  - intros H j Hj. destruct (permutes_onto n sigma j P Hj) as (i & Hi & <-). rewrite !Q by assumption. rewrite <- E2, <- !E1 by assumption.
    now apply H.
  - intros H i Hi. rewrite E2, !E1 by assumption. rewrite (H (sigma i)) by now apply permutes_lt. now rewrite !Q.
Qed.

Lemma moves_eq n sigma s s' t t' : permutes_sites n sigma -> moves n sigma s s' -> moves n sigma t t' -> (s' = t' <-> s = t).
Proof.
  intros P (L1 & L2 & E1) (L3 & L4 & E2). split; intros E; apply spin_ext; try congruence.
  - intros j Hj. rewrite L1 in Hj. destruct (permutes_onto n sigma j P Hj) as (i & Hi & <-). rewrite <- E1, <- E2 by exact Hi. congruence.
  - intros i Hi. rewrite L2 in Hi. rewrite E1, E2 by exact Hi. congruence.
Qed.

Lemma moves_heisenberg n sigma bonds off s s' t t' : bonds_ok n bonds -> permutes_sites n sigma -> preserves_bonds bonds sigma ->
  moves n sigma s s' -> moves n sigma t t' -> heisenberg_element off bonds s' t' = heisenberg_element off bonds s t.
Proof.
  intros O P B M1 M2. apply eq_IZR. unfold heisenberg_element. rewrite !plus_IZR.
  assert (Q := moves_eq n sigma s s' t t' P M1 M2). assert (M1' := M1). assert (M2' := M2).
  destruct M1' as (L1 & L2 & E1), M2' as (L3 & L4 & E2). unfold bonds_ok in O. rewrite Forall_forall in O.
  f_equal.
  - destruct (list_eq_dec Z.eq_dec s' t') as [A|A], (list_eq_dec Z.eq_dec s t) as [A'|A']; [|tauto|tauto|reflexivity].
    rewrite !IZR_Zsum. transitivity (bond_sum (fun a b => IZR (spin s (sigma a) * spin s (sigma b))) bonds).
    + apply Rsum_ext. intros b Hb. destruct (O b Hb) as (H1 & H2 & _). now rewrite !E1.
    + apply (B (fun a b => IZR (spin s a * spin s b))). intros a b. f_equal. lia.
  - rewrite !IZR_Zsum.
    set (f := fun a b => IZR (if negb (spin s a =? spin s b)%Z && exchanged a b s t then off else 0%Z)).
    transitivity (bond_sum (fun a b => f (sigma a) (sigma b)) bonds).
    + apply Rsum_ext. intros b Hb. destruct (O b Hb) as (H1 & H2 & _). unfold f. rewrite !E1 by assumption.
      now rewrite (moves_exchanged n sigma (fst b) (snd b) s s' t t').
    + apply B. intros a b. unfold f. rewrite (exchanged_comm n a b) by assumption. rewrite Z.eqb_sym. reflexivity.
Qed.

(** * Chains *)
Lemma bond_sum_app f l1 l2 : bond_sum f (l1 ++ l2) = bond_sum f l1 + bond_sum f l2.
Proof. apply Rsum_app. Qed.

Definition chain_symmetry (n : nat) (pbc : bool) (sigma : nat -> nat) : Prop :=
  permutes_sites n sigma /\ preserves_bonds (chain_bonds n pbc) sigma.

Lemma permutes_by n sigma : (forall i, (i < n)%nat -> (sigma i < n)%nat) -> (forall i j, (i < n)%nat -> (j < n)%nat -> sigma i = sigma j -> i = j) ->
  permutes_sites n sigma.
Proof.
  intros L I. apply NoDup_Permutation_bis.
  - rewrite NoDup_nth with (d := sigma 0%nat). rewrite map_length, seq_length. intros i j Hi Hj E.
    rewrite !map_nth, !seq_nth in E by assumption. now apply I.
  - now rewrite map_length, !seq_length.
  - intros j Hj. apply in_map_iff in Hj. destruct Hj as (i & <- & Hi). apply in_seq in Hi. apply in_seq. specialize (L i). lia.
Qed.

Lemma permutes_reverse n : permutes_sites n (fun i => n - 1 - i)%nat.
Proof. apply permutes_by; lia. Qed.

Lemma Rsum_reverse (f : nat -> R) n : Rsum (fun i => f (n - 1 - i)%nat) (seq 0 n) = Rsum f (seq 0 n).
Proof. rewrite <- (Rsum_map (fun i => n - 1 - i)%nat f). apply Rsum_perm, permutes_reverse. Qed.

Lemma chain_reverse n pbc : chain_symmetry n pbc (fun i => n - 1 - i)%nat.
Proof.
  split; [apply permutes_reverse|]. intros f F. unfold chain_bonds. rewrite !bond_sum_app. f_equal.
  - unfold bond_sum. rewrite !Rsum_map. cbn [fst snd]. rewrite <- (Rsum_reverse (fun i => f i (S i))). apply Rsum_ext. intros i Hi. apply in_seq in Hi.
    rewrite F. f_equal; lia.
  - destruct (pbc && (1 <? n))%bool eqn:E; [|reflexivity]. apply andb_true_iff in E. destruct E as [_ E]. apply Nat.ltb_lt in E.
    unfold bond_sum. rewrite !Rsum_cons, !Rsum_nil. cbn [fst snd]. rewrite F. f_equal. f_equal; lia.
Qed.

Lemma ring_sum n f : (1 < n)%nat -> bond_sum f (chain_bonds n true) = Rsum (fun i => f i ((i + 1) mod n)%nat) (seq 0 n).
Proof.
  intros Hn. unfold chain_bonds. replace (true && (1 <? n))%bool with true by (symmetry; cbn [andb]; now apply Nat.ltb_lt).
  rewrite bond_sum_app. unfold bond_sum. rewrite Rsum_map, Rsum_cons, Rsum_nil. cbn [fst snd].
  replace (seq 0 n) with (seq 0 (n - 1) ++ [n - 1]%nat).
  2: { transitivity (seq 0 (n - 1 + 1)); [rewrite seq_app; reflexivity|f_equal; lia]. }
  rewrite Rsum_app, Rsum_cons, Rsum_nil. f_equal.
  - apply Rsum_ext. intros i Hi. apply in_seq in Hi. f_equal. rewrite Nat.mod_small; lia.
  - f_equal. f_equal. replace (n - 1 + 1)%nat with n by lia. symmetry. apply Nat.mod_same. lia.
Qed.

Lemma permutes_shift n t : permutes_sites n (fun i => (i + t) mod n)%nat.
Proof.
  destruct (Nat.eq_dec n 0) as [->|N]; [constructor|].
  apply permutes_by; [intros; apply Nat.mod_upper_bound; lia|]. intros i j Hi Hj E.
  assert (A := Nat.div_mod (i + t) n N). assert (B := Nat.div_mod (j + t) n N). rewrite E in A.
  set (p := ((i + t) / n)%nat) in *. set (q := ((j + t) / n)%nat) in *. set (r := ((j + t) mod n)%nat) in *. clearbody p q r.
  assert (p = q) by nia. subst. lia.
Qed.

Lemma chain_shift n t : chain_symmetry n true (fun i => (i + t) mod n)%nat.
Proof.
  split; [apply permutes_shift|]. intros f F. destruct (Nat.lt_ge_cases 1 n) as [Hn|Hn].
  - rewrite !ring_sum by exact Hn. rewrite <- (Rsum_perm (fun i => f i ((i + 1) mod n)%nat) _ _ (permutes_shift n t)), Rsum_map.
    apply Rsum_ext. intros i _. f_equal. rewrite !Nat.add_mod_idemp_l by lia. f_equal. lia.
  - destruct n as [|[|n]]; [reflexivity|reflexivity|lia].
Qed.

(** * Grids *)
Definition product_map (m : nat) (alpha beta : nat -> nat) (k : nat) : nat := (alpha (k / m) * m + beta (k mod m))%nat.

Lemma divmod_site m i j : (j < m)%nat -> ((i * m + j) / m = i /\ (i * m + j) mod m = j)%nat.
Proof.
  intros H. split; [rewrite Nat.div_add_l, Nat.div_small; lia|]. rewrite Nat.add_comm, Nat.mod_add by lia. now apply Nat.mod_small.
Qed.

Lemma product_site m alpha beta i j : (j < m)%nat -> product_map m alpha beta (i * m + j) = (alpha i * m + beta j)%nat.
Proof. intros H. unfold product_map. destruct (divmod_site m i j H) as [-> ->]. reflexivity. Qed.

Lemma site_lt n m i j : (i < n)%nat -> (j < m)%nat -> (i * m + j < n * m)%nat.
Proof. nia. Qed.

Lemma site_unique m i j i' j' : (j < m)%nat -> (j' < m)%nat -> (i * m + j = i' * m + j')%nat -> i = i' /\ j = j'.
Proof. intros H H' E. destruct (divmod_site m i j H), (divmod_site m i' j' H'). rewrite E in *. split; congruence. Qed.

Lemma product_permutes n m alpha beta : permutes_sites n alpha -> permutes_sites m beta -> permutes_sites (n * m) (product_map m alpha beta).
Proof.
  intros A B. apply permutes_by.
  - intros k Hk. assert (m <> 0)%nat by nia. apply site_lt; [apply permutes_lt; [exact A|]|apply permutes_lt; [exact B|]].
    + apply Nat.div_lt_upper_bound; nia.
    + now apply Nat.mod_upper_bound.
  - intros k l Hk Hl E. assert (Hm : (m <> 0)%nat) by nia. unfold product_map in E.
    assert (k / m < n /\ l / m < n)%nat as [Hk' Hl'] by (split; apply Nat.div_lt_upper_bound; nia).
    assert (Hk2 := Nat.mod_upper_bound k m Hm). assert (Hl2 := Nat.mod_upper_bound l m Hm).
    assert (P1 := permutes_lt m beta _ B Hk2). assert (P2 := permutes_lt m beta _ B Hl2).
    assert (alpha (k / m) = alpha (l / m) /\ beta (k mod m) = beta (l mod m))%nat as [E1 E2] by (apply (site_unique m); assumption).
    apply (permutes_inj n alpha) in E1; auto. apply (permutes_inj m beta) in E2; auto.
    rewrite (Nat.div_mod k m Hm), (Nat.div_mod l m Hm). congruence.
Qed.

Lemma chain_bonds_lt n pbc b : In b (chain_bonds n pbc) -> (fst b < n /\ snd b < n)%nat.
Proof.
  unfold chain_bonds. intros H. apply in_app_or in H. destruct H as [H|H].
  - apply in_map_iff in H. destruct H as (i & <- & Hi). apply in_seq in Hi. cbn [fst snd]. lia.
  - destruct (pbc && (1 <? n))%bool eqn:E; [|contradiction]. apply andb_true_iff in E. destruct E as [_ E]. apply Nat.ltb_lt in E.
    destruct H as [<-|[]]. cbn [fst snd]. lia.
Qed.

Lemma grid_sum n m pbc f : bond_sum f (grid_bonds n m pbc) =
  Rsum (fun j => bond_sum (fun a b => f (a * m + j)%nat (b * m + j)%nat) (chain_bonds n pbc)) (seq 0 m) +
  Rsum (fun i => bond_sum (fun a b => f (i * m + a)%nat (i * m + b)%nat) (chain_bonds m pbc)) (seq 0 n).
Proof.
  unfold grid_bonds. rewrite bond_sum_app. unfold bond_sum. rewrite !Rsum_flat_map.
  f_equal; apply Rsum_ext; intros j _; now rewrite Rsum_map.
Qed.

Lemma grid_product n m pbc alpha beta : chain_symmetry n pbc alpha -> chain_symmetry m pbc beta ->
  preserves_bonds (grid_bonds n m pbc) (product_map m alpha beta).
Proof.
  intros [PA BA] [PB BB] f F. rewrite !grid_sum. f_equal.
  - rewrite <- (Rsum_perm (fun j => bond_sum (fun a b => f (a * m + j)%nat (b * m + j)%nat) (chain_bonds n pbc)) _ _ PB), Rsum_map. apply Rsum_ext. intros j Hj. apply in_seq in Hj.
    rewrite <- (BA (fun a b => f (a * m + beta j)%nat (b * m + beta j)%nat)) by (intros a b; apply F).
    apply Rsum_ext. intros b _. rewrite !product_site by lia. reflexivity.
  - rewrite <- (Rsum_perm (fun i => bond_sum (fun a b => f (i * m + a)%nat (i * m + b)%nat) (chain_bonds m pbc)) _ _ PA), Rsum_map. apply Rsum_ext. intros i Hi. apply in_seq in Hi.
    rewrite <- (BB (fun a b => f (alpha i * m + a)%nat (alpha i * m + b)%nat)) by (intros a b; apply F).
    apply Rsum_ext. intros b Hb. destruct (chain_bonds_lt m pbc b Hb). rewrite !product_site by lia. reflexivity.
Qed.

(** Turned by 90 degrees: the site in row i and column j takes its value from row j and column N - 1 - i. *)
Definition turn_map (N k : nat) : nat := ((k mod N) * N + (N - 1 - k / N))%nat.

Lemma turn_site N i j : (j < N)%nat -> turn_map N (i * N + j) = (j * N + (N - 1 - i))%nat.
Proof. intros H. unfold turn_map. destruct (divmod_site N i j H) as [-> ->]. reflexivity. Qed.

Lemma turn_permutes N : permutes_sites (N * N) (turn_map N).
Proof.
  apply permutes_by.
  - intros k Hk. assert (HN : (N <> 0)%nat) by nia. unfold turn_map. apply site_lt; [now apply Nat.mod_upper_bound|lia].
  - intros k l Hk Hl E. assert (HN : (N <> 0)%nat) by nia. unfold turn_map in E.
    assert (k / N < N /\ l / N < N)%nat as [Hk' Hl'] by (split; apply Nat.div_lt_upper_bound; nia).
    assert (Hk2 := Nat.mod_upper_bound k N HN). assert (Hl2 := Nat.mod_upper_bound l N HN).
    assert (k mod N = l mod N /\ (N - 1 - k / N) = (N - 1 - l / N))%nat as [E1 E2].
    { apply (site_unique N); [lia|lia|exact E]. }
    rewrite (Nat.div_mod k N HN), (Nat.div_mod l N HN). rewrite E1. do 2 f_equal. lia.
Qed.

Lemma turn_bonds N pbc : preserves_bonds (grid_bonds N N pbc) (turn_map N).
Proof.
  intros f F. rewrite !grid_sum, Rplus_comm. destruct (chain_reverse N pbc) as [PR BR]. f_equal.
  - rewrite <- (Rsum_reverse (fun j => bond_sum (fun a b => f (a * N + j)%nat (b * N + j)%nat) (chain_bonds N pbc)) N).
    apply Rsum_ext. intros i Hi. apply in_seq in Hi. apply Rsum_ext. intros b Hb. destruct (chain_bonds_lt N pbc b Hb).
    rewrite !turn_site by lia. reflexivity.
  - apply Rsum_ext. intros j Hj. apply in_seq in Hj.
    rewrite <- (BR (fun a b => f (j * N + a)%nat (j * N + b)%nat)) by (intros a b; apply F).
    apply Rsum_ext. intros b _. rewrite !turn_site by lia. reflexivity.
Qed.
