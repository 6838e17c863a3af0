(** C03: vectors of NetKet converted to the numbering of the exact objects. *)
From Coq Require Import List ZArith Lia Arith Bool Permutation.
From Verif Require Import Base IsingModel IsingProofs ExactUtilsModel ExactUtilsSpec ExactUtilsProofs ExactUtilsProps ExactVectorModel.
Import ListNotations.
Local Open Scope Z_scope.

Lemma states_list n : decimal_array_to_binary_array (arange 0 (2 ^ n)) n false None = map (fun i => decimal_to_binary (Z.of_nat i) n false) (range (2 ^ n)).
Proof. rewrite C02_encode_array by discriminate. unfold arange. rewrite map_map. apply map_ext. intros i. now rewrite Z.add_0_l. Qed.
Lemma np_index_nat {A} (l : list A) k d : (k < length l)%nat -> np_index l (Z.of_nat k) = Ok (nth k l d).
Proof.
  intros K. unfold np_index. destruct (Z.ltb_spec (Z.of_nat k) 0); [lia|]. cbv zeta. destruct (Z.ltb_spec (Z.of_nat k) 0); [lia|]. rewrite Nat2Z.id, (nth_error_nth' l d K). reflexivity.
Qed.
Lemma mapM_raises {A B} (f : A -> res B) l x e : In x l -> f x = Err e -> exists e', mapM f l = Err e'.
Proof.
  induction l as [|a l IH]; intros I E; [destruct I|]. cbn [mapM]. destruct I as [->|I]; [rewrite E; eexists; reflexivity|].
  destruct (f a); [|eexists; reflexivity]. cbn [bind]. destruct (IH I E) as (e' & ->). eexists. reflexivity.
Qed.

Lemma NoDup_map_on {A B} (f : A -> B) l : (forall x y, In x l -> In y l -> f x = f y -> x = y) -> NoDup l -> NoDup (map f l).
Proof.
  induction l as [|a l IH]; intros H D; [constructor|]. inversion D; subst. cbn [map]. constructor.
  - intros I. apply in_map_iff in I. destruct I as (b & E & I). assert (b = a) by (apply H; [now right|now left|exact E]). now subst b.
  - apply IH; [|assumption]. intros x y X Y. apply H; now right.
Qed.

(** A numbering of the configurations of [n] spins within a vector of length [m]. *)
Definition numbers_within (n m : nat) (state_to_number : list Z -> res Z) (f : list Z -> nat) : Prop :=
  forall s, length s = n -> spin_string false s -> state_to_number s = Ok (Z.of_nat (f s)) /\ (f s < m)%nat.

(** The machine made from the converted vector has, for every configuration, the amplitude that NetKet's vector has at the number NetKet gives to this
    configuration. When different configurations have different numbers and there are no further entries, the converted vector has the same entries in another
    order, so that sums over them such as the norm are kept. *)
Theorem C03_netket_vector : forall (A : Type) (n : nat) (state_to_number : list Z -> res Z) (f : list Z -> nat) (v : list A) (d : A),
  numbers_within n (length v) state_to_number f -> Z.of_nat (length v) <= 2 ^ 31 -> (n <= 32)%nat ->
  exists w, netket_vector_to_exact_variational_vector state_to_number v n = Ok w /\ length w = (2 ^ n)%nat /\
    (forall s, length s = n -> spin_string false s -> vector_to_machine w s = Ok (nth (f s) v d)) /\
    ((forall s t, length s = n -> spin_string false s -> length t = n -> spin_string false t -> f s = f t -> s = t) -> length v = (2 ^ n)%nat -> Permutation w v).
Proof.
  intros A n num f v d H B N. set (st := fun i => decimal_to_binary (Z.of_nat i) n false).
  assert (ST : forall i, length (st i) = n /\ spin_string false (st i)) by (intros i; apply (proj1 (C01_bijection n false))).
  exists (map (fun i => nth (f (st i)) v d) (range (2 ^ n))).
  assert (T : to_log_wave_function_vector d (fun s => nth (f s) v d) n (2 ^ n) = Ok (map (fun i => nth (f (st i)) v d) (range (2 ^ n)))).
  { apply C03_table; [apply Nat.neq_0_lt_0, Nat.pow_nonzero; lia|]. rewrite Nat.min_id. apply Nat.mod_same, Nat.pow_nonzero. lia. }
  split; [|split; [|split]].
  - unfold netket_vector_to_exact_variational_vector. rewrite states_list. fold st.
    rewrite (mapM_ok _ (fun s => Z.of_nat (f s))).
    + cbn [bind]. rewrite map_map, (mapM_ok _ (fun k => nth (Z.to_nat k) v d)).
      * rewrite map_map. f_equal. apply map_ext. intros i. now rewrite Nat2Z.id.
      * intros k I. apply in_map_iff in I. destruct I as (i & <- & _). destruct (ST i) as [L S]. destruct (H _ L S) as [_ X]. rewrite Nat2Z.id. now apply np_index_nat.
    + intros s I. apply in_map_iff in I. destruct I as (i & <- & _). destruct (ST i) as [L S]. destruct (H _ L S) as [E X]. rewrite E. cbn [bind]. unfold as_int32.
      destruct (Z.leb_spec (- 2 ^ 31) (Z.of_nat (f (st i)))), (Z.ltb_spec (Z.of_nat (f (st i))) (2 ^ 31)); try lia. reflexivity.
  - rewrite map_length. apply seq_length.
  - intros s L S. exact (C03_lookup_after_table A d _ n (2 ^ n) _ s T N L S).
  - intros INJ LV. rewrite <- (map_map (fun i => f (st i)) (fun k => nth k v d)).
    assert (P : Permutation (map (fun i => f (st i)) (range (2 ^ n))) (range (2 ^ n))).
    { apply NoDup_Permutation_bis.
      - apply NoDup_map_on; [|apply seq_NoDup]. intros i j I J E. apply in_seq in I, J.
        destruct (ST i) as [Li Si], (ST j) as [Lj Sj]. pose proof (INJ _ _ Li Si Lj Sj E) as Q.
        destruct (proj2 (C01_bijection n false) _ Li Si) as (z & _ & U).
        assert (PW : 2 ^ Z.of_nat n = Z.of_nat (2 ^ n)) by (rewrite Nat2Z.inj_pow; reflexivity).
        assert (z = Z.of_nat i) by (apply U; split; [lia|reflexivity]). assert (z = Z.of_nat j) by (apply U; split; [lia|symmetry; exact Q]). lia.
      - rewrite map_length. lia.
      - intros k I. apply in_map_iff in I. destruct I as (i & <- & _). destruct (ST i) as [L S]. destruct (H _ L S) as [_ X]. apply in_seq. lia. }
    rewrite (Permutation_map (fun k => nth k v d) P). rewrite <- LV.
    replace (map (fun k => nth k v d) (range (length v))) with v; [apply Permutation_refl|].
    apply (nth_ext _ _ d d); [now rewrite map_length; unfold range; rewrite seq_length|]. intros k K. unfold range.
    set (g := fun k0 : nat => nth k0 v d). rewrite (nth_indep (map g (seq 0 (length v))) d (g 0%nat)) by (rewrite map_length, seq_length; exact K).
    rewrite map_nth, seq_nth by exact K. reflexivity.
Qed.
Print Assumptions C03_netket_vector.
(** NetKet's numbering for two spins: the first spin counts two. The entries 1 and 2 change places. *)
Definition first_is_high (s : list Z) : res Z := Ok (match s with [a; b] => (a + 1) + (b + 1) / 2 | _ => 0 end).
Example C03_netket_vector_ex : numbers_within 2 4 first_is_high (fun s => match s with [a; b] => Z.to_nat ((a + 1) + (b + 1) / 2) | _ => 0%nat end) /\
  netket_vector_to_exact_variational_vector first_is_high [10; 11; 12; 13] 2 = Ok [10; 12; 11; 13].
Proof.
  split; [|reflexivity]. intros [|a [|b [|c s]]] L S; try discriminate. inversion S as [|? ? A S']; subst. inversion S' as [|? ? B S'']; subst.
  unfold low in *. destruct A as [-> | ->], B as [-> | ->]; vm_compute; split; (reflexivity || lia).
Qed.

(** In a Hilbert space that leaves out configurations, such as one of fixed total spin, the conversion raises: when NetKet has no number for some configuration, or one
    beyond the end of the vector or outside of int32. *)
Theorem C03_netket_vector_restricted_refuted : forall (A : Type) (n : nat) (state_to_number : list Z -> res Z) (v : list A) (s : list Z),
  length s = n -> spin_string false s ->
  ((exists e, state_to_number s = Err e) \/ (exists k, state_to_number s = Ok k /\ (Z.of_nat (length v) <= k \/ k < - 2 ^ 31 \/ 2 ^ 31 <= k))) ->
  exists e, netket_vector_to_exact_variational_vector state_to_number v n = Err e.
Proof.
  intros A n num v s L S H. unfold netket_vector_to_exact_variational_vector. rewrite states_list.
  assert (I : In s (map (fun i => decimal_to_binary (Z.of_nat i) n false) (range (2 ^ n)))).
  { destruct (proj2 (C01_bijection n false) _ L S) as (z & [Z1 Z2] & _). apply in_map_iff. exists (Z.to_nat z). rewrite Z2Nat.id by lia. split; [exact Z2|]. apply in_seq.
    assert (PW : 2 ^ Z.of_nat n = Z.of_nat (2 ^ n)) by (rewrite Nat2Z.inj_pow; reflexivity). lia. }
  set (g := fun s => do k <- num s ; as_int32 k). set (ss := map _ _) in *. destruct H as [[e E]|(k & E & K)].
  - destruct (mapM_raises g ss s e I) as (e' & ->); [unfold g; rewrite E; reflexivity|]. eexists. reflexivity.
  - destruct (as_int32 k) as [k'|e] eqn:Q.
    + assert (k' = k /\ - 2 ^ 31 <= k < 2 ^ 31) as [-> RK].
      { unfold as_int32 in Q. destruct (Z.leb_spec (- 2 ^ 31) k), (Z.ltb_spec k (2 ^ 31)); cbn [andb] in Q; try discriminate. injection Q as <-. lia. }
      assert (KL : Z.of_nat (length v) <= k) by lia.
      destruct (mapM g ss) as [ks|e'] eqn:M; [|eexists; reflexivity]. cbn [bind].
      assert (IK : In k ks).
      { clear - I M E Q. subst g. revert ks M. induction ss as [|x ss IH]; intros ks M; [destruct I|]. cbn [mapM] in M. destruct I as [->|I].
        - rewrite E in M. cbn [bind] in M. rewrite Q in M. cbn [bind] in M. destruct (mapM _ ss); [|discriminate]. cbn in M. injection M as <-. now left.
        - destruct (do k0 <- num x; as_int32 k0); [|discriminate]. cbn [bind] in M. destruct (mapM _ ss) eqn:MM; [|discriminate]. cbn in M. injection M as <-. right. now apply IH. }
      apply (mapM_raises _ ks k IndexError IK). unfold np_index. destruct (Z.ltb_spec k 0); [lia|]. cbv zeta. destruct (Z.ltb_spec k 0); [lia|].
      rewrite (proj2 (nth_error_None _ _)); [reflexivity|lia].
    + destruct (mapM_raises g ss s e I) as (e' & ->); [unfold g; rewrite E; exact Q|]. eexists. reflexivity.
Qed.
Print Assumptions C03_netket_vector_restricted_refuted.
(** Two spins of total spin 0, numbered 0 and 1. *)
Example C03_netket_vector_restricted_ex : netket_vector_to_exact_variational_vector
  (fun s => match s with [-1; 1] => Ok 0 | [1; -1] => Ok 1 | _ => Err ValueError end) [10; 11] 2 = Err ValueError.
Proof. reflexivity. Qed.
