(** Lemmas for exact enumeration. *)
From Coq Require Import List ZArith Reals Lra Lia Bool Arith Permutation.
From Verif Require Import Base Cplx ExactUtilsModel ExactUtilsSpec ExactUtilsProofs IsingModel IsingProofs
  AutoregressiveModel AutoregressiveSpec AutoregressiveProofs ObservableModel ObservableSpec ObservableProofs
  ExactModel ExactSpec.
Import ListNotations.
Local Open Scope nat_scope.

(** * The basis *)
Definition basis (n : nat) : list (list Z) := map (fun i => decimal_to_binary (Z.of_nat i) n false) (range (2 ^ n)).

Lemma pow2_Z n : Z.of_nat (2 ^ n) = (2 ^ Z.of_nat n)%Z.
Proof. rewrite Nat2Z.inj_pow. reflexivity. Qed.

Lemma spin_string_spins s n : length s = n -> spin_string false s -> In s (spin_configs n).
Proof.
  intros L F. apply in_strings. split; [exact L|]. revert F. apply Forall_impl. intros x. unfold low. simpl. intuition lia.
Qed.
Lemma spins_spin_string s n : In s (spin_configs n) -> length s = n /\ spin_string false s.
Proof.
  intros H. apply in_strings in H. destruct H as [L F]. split; [exact L|]. revert F. apply Forall_impl. intros x. simpl.
  unfold low. intuition lia.
Qed.

Lemma basis_in n s : In s (basis n) <-> In s (spin_configs n).
Proof.
  unfold basis. rewrite in_map_iff. split.
  - intros (i & <- & Hi). apply spin_string_spins; [apply d2b_length|apply d2b_alphabet].
  - intros H. apply spins_spin_string in H. destruct H as [L F]. subst n.
    exists (Z.to_nat (binary_to_decimal s)). pose proof (b2d_range s) as B. split.
    + rewrite Z2Nat.id by lia. now apply d2b_b2d.
    + unfold range. apply in_seq. split; [lia|]. rewrite <- pow2_Z in B. cbn [Nat.add]. lia.
Qed.

Lemma NoDup_map_on {A B} (f : A -> B) l : (forall a b, In a l -> In b l -> f a = f b -> a = b) -> NoDup l -> NoDup (map f l).
Proof.
  intros I N. induction N as [|a l Ha N IH]; cbn [map]; constructor.
  - intros H. apply in_map_iff in H. destruct H as (b & E & Hb). apply Ha. rewrite <- (I b a); auto; [now right|now left].
  - apply IH. intros x y Hx Hy. apply I; now right.
Qed.

Lemma basis_NoDup n : NoDup (basis n).
Proof.
  unfold basis. apply NoDup_map_on; [|apply seq_NoDup].
  intros i j Hi Hj E. unfold range in Hi, Hj. apply in_seq in Hi. apply in_seq in Hj.
  apply (f_equal binary_to_decimal) in E. pose proof (pow2_Z n). rewrite !b2d_d2b in E by lia. lia.
Qed.

Lemma basis_perm n : Permutation (basis n) (spin_configs n).
Proof.
  apply NoDup_Permutation; [apply basis_NoDup|apply NoDup_spin_configs|]. apply basis_in.
Qed.

Lemma basis_length n : length (basis n) = 2 ^ n.
Proof. unfold basis. now rewrite map_length, range_length. Qed.

Lemma states_basis n : decimal_array_to_binary_array (arange 0 (num_of_states n)) n false None = basis n.
Proof. rewrite dab_none. unfold arange, basis, num_of_states. rewrite map_map. reflexivity. Qed.

Lemma basis_nth n s : In s (spin_configs n) -> nth (Z.to_nat (binary_to_decimal s)) (basis n) [] = s.
Proof.
  intros H. apply spins_spin_string in H. destruct H as [L F]. subst n. pose proof (b2d_range s) as B.
  rewrite <- pow2_Z in B. unfold basis. rewrite (nth_map_in _ _ _ [] 0) by (rewrite range_length; lia).
  unfold range. rewrite seq_nth by lia. cbn [Nat.add]. rewrite Z2Nat.id by lia. now apply d2b_b2d.
Qed.

(** * Loops over batches *)
Lemma firstn_slice {A} (l : list A) i b : i + b <= length l -> firstn (i + b) l = firstn i l ++ slice l i (i + b).
Proof.
  intros H. unfold slice. replace (i + b - i) with b by lia. revert i H. induction l as [|a l IH]; intros [|i] H; simpl in *; try lia; auto.
  rewrite IH by lia. reflexivity.
Qed.
Lemma slice_length {A} (l : list A) i b : i + b <= length l -> length (slice l i (i + b)) = b.
Proof. intros H. unfold slice. rewrite firstn_length, skipn_length. lia. Qed.

Lemma batch_loop_ok {A} (f : nat -> res (list A)) (want : list A) batch : forall steps i out,
  (forall j, j < steps -> f (i + j * batch) = Ok (slice want (i + j * batch) (i + j * batch + batch))) ->
  length out = length want -> i + steps * batch = length want -> firstn i out = firstn i want ->
  batch_loop f batch steps i out = Ok want.
Proof.
  induction steps as [|k IH]; intros i out Hf L E P; cbn [batch_loop].
  - f_equal. rewrite <- (firstn_all out), <- (firstn_all want), L. replace (length want) with i by lia. exact P.
  - cbn [Nat.mul] in E. pose proof (Hf 0 (Nat.lt_0_succ k)) as H0. cbn [Nat.mul] in H0. rewrite Nat.add_0_r in H0.
    rewrite H0. cbn [bind]. rewrite assign_slice_full by (try apply slice_length; lia). cbn [bind].
    apply IH.
    + intros j Hj. specialize (Hf (S j)). cbn [Nat.mul] in Hf.
      replace (i + batch + j * batch) with (i + (batch + j * batch)) by lia. apply Hf. lia.
    + rewrite !app_length, firstn_length, skipn_length, slice_length by lia. lia.
    + lia.
    + rewrite (firstn_slice want) by lia. rewrite app_assoc, firstn_app.
      assert (Ll : length (firstn i out ++ slice want i (i + batch)) = i + batch).
      { rewrite app_length, firstn_length, slice_length by lia. lia. }
      rewrite Ll, Nat.sub_diag. cbn [firstn]. rewrite app_nil_r, firstn_all2 by lia. now rewrite P.
Qed.

Lemma map_slice {A B} (f : A -> B) l a b : map f (slice l a b) = slice (map f l) a b.
Proof. unfold slice. now rewrite skipn_map, firstn_map. Qed.

(** The loop over all states that stores [map g l]. *)
Lemma batch_loop_map {A B} (f : nat -> res (list B)) (g : A -> B) (l : list A) n batch out :
  (0 < batch) -> 2 ^ n mod batch = 0 -> length l = 2 ^ n -> length out = 2 ^ n ->
  (forall i, i + batch <= 2 ^ n -> f i = Ok (map g (slice l i (i + batch)))) ->
  batch_loop f batch (range_steps (num_of_states n) batch) 0 out = Ok (map g l).
Proof.
  intros Hb Hm Ll Lo Hf. unfold num_of_states.
  assert (E : 2 ^ n = 2 ^ n / batch * batch). { pose proof (Nat.div_mod (2 ^ n) batch ltac:(lia)). lia. }
  rewrite E, range_steps_mult by exact Hb. apply batch_loop_ok.
  - intros j Hj. cbn [Nat.add]. rewrite Hf by nia. now rewrite map_slice.
  - rewrite map_length. lia.
  - rewrite map_length. lia.
  - reflexivity.
Qed.

(** * Columns *)
Lemma represents_sum n K H samples c b s (F : list Z -> C) : represents n K H samples c -> nth_error samples b = Some s ->
  Csum (fun k => (entry C0 (mels c) k b * F (entry [] (conns c) k b))%C) (seq 0 K) =
  Csum (fun t => (H s t * F t)%C) (spin_configs n).
Proof.
  intros (R & HF & HU & HR) Es. destruct (HR b s Es) as [Hin Hsum].
  rewrite (Csum_ext (fun t => (H s t * F t)%C) (fun t => Csum (fun k => ((if entry false (uses c) k b then
       if list_eq_dec Z.eq_dec (entry [] (conns c) k b) t then entry C0 (mels c) k b else C0 else C0) * F t)%C) (seq 0 K))).
  2: { intros t Ht. rewrite <- Hsum by exact Ht. symmetry. apply Csum_scal_r. }
  rewrite Csum_exchange. apply Csum_ext. intros k Hk. apply in_seq in Hk.
  assert (Hb : b < length samples) by (apply nth_error_Some; congruence).
  destruct (entry false (uses c) k b) eqn:Eu.
  - rewrite (Csum_ext _ (fun t => if list_eq_dec Z.eq_dec (entry [] (conns c) k b) t
                                  then (entry C0 (mels c) k b * F t)%C else C0)).
    + rewrite (Csum_single (list_eq_dec Z.eq_dec) (fun t => (entry C0 (mels c) k b * F t)%C)).
      * reflexivity.
      * apply NoDup_spin_configs.
      * apply Hin; [lia|exact Eu].
    + intros t _. destruct (list_eq_dec _ _ _); ring.
  - rewrite (HU k b) by (auto; lia). rewrite (Csum_ext (fun t => (C0 * F t)%C) (fun _ => C0)) by (intros; ring).
    rewrite Csum_zero. ring.
Qed.

Lemma b2d_half s n : In s (spin_configs n) -> binary_to_decimal (map (fun x => ((x + 1) / 2)%Z) s) = binary_to_decimal s.
Proof.
  intros H. apply spins_spin_string in H. destruct H as [_ F]. induction F as [|x s Hx F IH]; [reflexivity|].
  cbn [map]. rewrite !b2d_cons, IH. unfold low in Hx. destruct Hx as [->| ->]; reflexivity.
Qed.

(** Column of a state: every entry is a valid index, the first is the state itself. *)
Definition good_column (n : nat) (H : list Z -> list Z -> C) (s : list Z) (col : list (Z * C)) : Prop :=
  (forall ic, In ic col -> (0 <= fst ic < 2 ^ Z.of_nat n)%Z) /\
  (exists m rest, col = (binary_to_decimal s, m) :: rest) /\
  forall F : list Z -> C, Csum (fun ic => (snd ic * F (nth (Z.to_nat (fst ic)) (basis n) []))%C) col =
    Csum (fun t => (H s t * F t)%C) (spin_configs n).

Lemma Csum_combine' {A B} (f : A * B -> C) (l1 : list A) : forall (l2 : list B) d1 d2, length l1 = length l2 ->
  Csum f (combine l1 l2) = Csum (fun k => f (nth k l1 d1, nth k l2 d2)) (seq 0 (length l1)).
Proof. apply Csum_combine. Qed.

Lemma padded_good n H K c samples rows b s : (n <= 31) -> (0 < K) -> represents n K H samples c -> K <= rows ->
  (forall row s, In row (conns c) -> In s row -> length s = n) -> In s (spin_configs n) ->
  nth_error samples b = Some s -> good_column n H s (padded_column n rows c b).
Proof.
  intros Hn HK HR Hrows Hlen Hs Es. pose proof HR as (R & HF & HU & Hrep). pose proof R as (R1 & R2 & R3).
  assert (Hb : b < length samples) by (apply nth_error_Some; congruence).
  assert (LC : length (conns c) = K) by now apply (arrays_length K (length samples)).
  assert (LM : length (mels c) = K) by now apply (arrays_length K (length samples)).
  unfold padded_column. cbv zeta. rewrite LC.
  set (digits := map (map (fun x => ((x + 1) / 2)%Z)) (at_sample b [] (conns c)) ++ repeat (repeat 0%Z n) (rows - K)).
  assert (Lat : forall x, In x (at_sample b [] (conns c)) -> length x = n).
  { intros x Hx. unfold at_sample in Hx. apply in_map_iff in Hx. destruct Hx as (r & <- & Hr). apply (Hlen r); [exact Hr|].
    apply nth_In. destruct R1 as [_ F]. rewrite Forall_forall in F. rewrite F by exact Hr. exact Hb. }
  assert (Fd : Forall (fun r => length r = n) digits).
  { apply Forall_app. split; apply Forall_forall; intros r Hr.
    - apply in_map_iff in Hr. destruct Hr as (x & <- & Hx). rewrite map_length. now apply Lat.
    - apply repeat_spec in Hr. subst r. apply repeat_length. }
  assert (Ld : length digits = rows).
  { unfold digits. rewrite app_length, map_length, at_sample_length, repeat_length, LC. lia. }
  rewrite bad_exact by assumption.
  set (ms := at_sample b C0 (mels c) ++ repeat C0 (rows - K)).
  assert (Lms : length ms = rows).
  { unfold ms. rewrite app_length, at_sample_length, repeat_length, LM. lia. }
  destruct (HF b s Es) as [F1 _].
  assert (Hk : forall k, k < K -> nth k digits [] = map (fun x => ((x + 1) / 2)%Z) (entry [] (conns c) k b) /\
                           nth k ms C0 = entry C0 (mels c) k b).
  { intros k Hk. unfold digits, ms. split.
    - rewrite app_nth1 by (rewrite map_length, at_sample_length; lia).
      rewrite (nth_map_in _ _ _ [] []) by (rewrite at_sample_length; lia). now rewrite nth_at_sample by lia.
    - rewrite app_nth1 by (rewrite at_sample_length; lia). now rewrite nth_at_sample by lia. }
  assert (Hk0 : forall k, K <= k -> nth k ms C0 = C0).
  { intros k Hk'. unfold ms. rewrite app_nth2 by (rewrite at_sample_length; lia). apply nth_repeat. }
  split; [|split].
  - intros [i m] Hi. apply in_combine_l in Hi. apply in_map_iff in Hi. destruct Hi as (r & <- & Hr).
    cbn [fst]. rewrite Forall_forall in Fd. rewrite <- (Fd r Hr). apply b2d_range.
  - destruct (Hk 0 HK) as [D0 _].
    destruct digits as [|d0 ds]; [simpl in Ld; lia|]. destruct ms as [|m0 ms']; [simpl in Lms; lia|].
    cbn [map combine]. cbn [nth] in D0. exists m0, (combine (map binary_to_decimal ds) ms').
    rewrite D0, F1. now rewrite (b2d_half s n Hs).
  - intros F. rewrite (Csum_combine _ _ _ 0%Z C0) by (rewrite map_length; lia).
    rewrite map_length, Ld. replace rows with (K + (rows - K)) by lia. rewrite seq_app, Csum_app.
    rewrite (Csum_ext _ (fun _ => C0) (seq (0 + K) (rows - K))).
    2: { intros k Hk'. apply in_seq in Hk'. cbn [snd]. rewrite Hk0 by lia. ring. }
    rewrite Csum_zero. rewrite <- (represents_sum n K H samples c b s F HR Es).
    transitivity (Csum (fun k => (entry C0 (mels c) k b * F (entry [] (conns c) k b))%C) (seq 0 K) + C0)%C; [|ring].
    f_equal. apply Csum_ext. intros k Hk'. apply in_seq in Hk'. cbn [fst snd]. destruct (Hk k) as [D1 D2]; [lia|].
    rewrite D2, (nth_map_in _ _ _ 0%Z []) by lia. rewrite D1.
    destruct (entry false (uses c) k b) eqn:Eu.
    + destruct (Hrep b s Es) as [Hin _]. assert (I : In (entry [] (conns c) k b) (spin_configs n)) by (apply Hin; [lia|exact Eu]).
      rewrite (b2d_half _ n) by exact I. now rewrite basis_nth.
    + rewrite (HU k b) by (auto; lia). ring.
Qed.

Lemma batch_loop_rel {A B} (P : A -> B -> Prop) (f : nat -> res (list B)) (l : list A) batch : forall steps i out,
  (forall j, j < steps -> exists v, f (i + j * batch) = Ok v /\ Forall2 P (slice l (i + j * batch) (i + j * batch + batch)) v) ->
  length out = length l -> i + steps * batch = length l -> Forall2 P (firstn i l) (firstn i out) ->
  exists out', batch_loop f batch steps i out = Ok out' /\ Forall2 P l out'.
Proof.
  assert (F2L : forall (x : list A) (y : list B), Forall2 P x y -> length x = length y) by (induction 1; cbn [length]; auto).
  induction steps as [|k IH]; intros i out Hf L E HP; cbn [batch_loop].
  - exists out. split; [reflexivity|]. rewrite <- (firstn_all out), <- (firstn_all l), L. replace (length l) with i by lia. exact HP.
  - cbn [Nat.mul] in E. pose proof (Hf 0 (Nat.lt_0_succ k)) as H0. cbn [Nat.mul] in H0. rewrite Nat.add_0_r in H0.
    destruct H0 as (v & Ev & Fv). rewrite Ev. cbn [bind].
    assert (Lv : length v = batch) by (rewrite <- (F2L _ _ Fv); apply slice_length; lia).
    rewrite assign_slice_full by (auto; lia). cbn [bind]. apply IH.
    + intros j Hj. specialize (Hf (S j)). cbn [Nat.mul] in Hf.
      replace (i + batch + j * batch) with (i + (batch + j * batch)) by lia. apply Hf. lia.
    + rewrite !app_length, firstn_length, skipn_length, Lv by lia. lia.
    + lia.
    + rewrite (firstn_slice l) by lia. rewrite app_assoc, firstn_app.
      assert (Ll : length (firstn i out ++ v) = i + batch).
      { rewrite app_length, firstn_length, Lv by lia. lia. }
      rewrite Ll, Nat.sub_diag. cbn [firstn]. rewrite app_nil_r, (firstn_all2 (firstn i out ++ v)) by lia. now apply Forall2_app.
Qed.

Lemma Forall2_nth_pairs {A B} (P : A -> B -> Prop) (l : list A) (l' : list B) : length l = length l' ->
  (forall i a, nth_error l i = Some a -> exists b, nth_error l' i = Some b /\ P a b) -> Forall2 P l l'.
Proof.
  revert l'. induction l as [|a l IH]; intros [|b l'] L H; simpl in L; try lia; constructor.
  - destruct (H 0 a eq_refl) as (b' & E & HP). cbn in E. injection E as <-. exact HP.
  - apply IH; [lia|]. intros i x Hx. apply (H (S i) x Hx).
Qed.

Lemma slice_in {A} (l : list A) a b x : In x (slice l a b) -> In x l.
Proof.
  unfold slice. intros H. rewrite <- (firstn_skipn a l). apply in_or_app. right.
  rewrite <- (firstn_skipn (b - a) (skipn a l)). apply in_or_app. now left.
Qed.

Lemma slice_nonempty {A} (l : list A) a b : a < b -> b <= length l -> slice l a b <> [].
Proof.
  intros H1 H2 E. assert (L : length (slice l a b) = 0) by now rewrite E. unfold slice in L. rewrite firstn_length, skipn_length in L. lia.
Qed.

Lemma max_loop_ok op n H batch : 0 < batch -> operator_represents n H op ->
  forall steps i acc, i + steps * batch <= 2 ^ n -> exists m, max_connections_loop op (basis n) batch steps i acc = Ok m /\ acc <= m /\
    forall j, j < steps -> forall c, find_conn op (slice (basis n) (i + j * batch) (i + j * batch + batch)) = Ok c -> length (conns c) <= m.
Proof.
  intros HB HO. induction steps as [|k IH]; intros i acc Hi; cbn [max_connections_loop].
  - exists acc. split; [reflexivity|]. split; [lia|]. intros; lia.
  - destruct (HO (slice (basis n) i (i + batch))) as (K & c & Ec & _).
    { apply slice_nonempty; rewrite ?basis_length; cbn [Nat.mul] in Hi; lia. }
    { intros s Hs. apply basis_in. now apply slice_in in Hs. }
    rewrite Ec. cbn [bind]. cbv zeta.
    destruct (IH (i + batch) (if acc <? length (conns c) then length (conns c) else acc)) as (m & Em & L1 & L2); [cbn [Nat.mul] in Hi; lia|].
    exists m. split; [exact Em|]. assert (acc <= m /\ length (conns c) <= m).
    { destruct (Nat.ltb_spec acc (length (conns c))); lia. }
    split; [lia|]. intros [|j] Hj c' Hc'.
    + cbn [Nat.mul] in Hc'. rewrite Nat.add_0_r in Hc'. assert (c' = c) by congruence. subst. lia.
    + apply (L2 j); [lia|]. cbn [Nat.mul] in Hc'.
      replace (i + batch + j * batch) with (i + (batch + j * batch)) by lia. exact Hc'.
Qed.

(** * The invariant of the object *)
Record good_exact (n : nat) (H : list Z -> list Z -> C) (e : exact) : Prop := {
  ge_n : number_of_spins e = n;
  ge_batch : 0 < batch_size e;
  ge_div : 2 ^ n mod batch_size e = 0;
  ge_states : states e = basis n;
  ge_columns : Forall2 (good_column n H) (basis n) (columns e);
  ge_wave : length (wave_function e) = 2 ^ n;
  ge_energies : length (energies e) = 2 ^ n;
  ge_naive : length (naive_energies e) = 2 ^ n
}.

Lemma set_batch_size_ok n batch : good_batch_size n batch ->
  set_batch_size (2 ^ n) batch = Ok (Nat.min batch (2 ^ n)).
Proof.
  intros [Hb Hm]. unfold set_batch_size. pose proof (pow2_pos n).
  replace (if 2 ^ n <? batch then 2 ^ n else batch) with (Nat.min batch (2 ^ n))
    by (destruct (Nat.ltb_spec (2 ^ n) batch); lia).
  destruct (Nat.eqb_spec (Nat.min batch (2 ^ n)) 0); [lia|]. rewrite Hm. reflexivity.
Qed.

Lemma new_exact_ok n H op batch : n <= 31 -> operator_represents n H op -> good_batch_size n batch ->
  exists e, new_exact n op batch = Ok e /\ good_exact n H e /\ batch_size e = Nat.min batch (2 ^ n) /\ updates e = 0.
Proof.
  intros Hn HO HB. unfold new_exact. cbv zeta. rewrite states_basis. unfold num_of_states at 1.
  rewrite set_batch_size_ok by exact HB. cbn [bind]. destruct HB as [Hb0 Hm].
  set (B := Nat.min batch (2 ^ n)) in *. pose proof (pow2_pos n) as P2. assert (HB : 0 < B) by (unfold B; lia).
  assert (Ediv : 2 ^ n = 2 ^ n / B * B). { pose proof (Nat.div_mod (2 ^ n) B ltac:(lia)). lia. }
  assert (Hsteps : range_steps (num_of_states n) B = 2 ^ n / B).
  { unfold num_of_states. rewrite Ediv at 1. now apply range_steps_mult. }
  rewrite Hsteps.
  assert (Hrows : exists rows, match declared_max op with Some k => Ok k | None => max_connections_loop op (basis n) B (2 ^ n / B) 0 0 end = Ok rows /\
     forall j, j < 2 ^ n / B -> forall c, find_conn op (slice (basis n) (j * B) (j * B + B)) = Ok c -> length (conns c) <= rows).
  { destruct (declared_max op) as [k|] eqn:Ed.
    - exists k. split; [reflexivity|]. intros j Hj c Hc.
      destruct (HO (slice (basis n) (j * B) (j * B + B))) as (K & c' & Ec & _ & HR & Hk & _).
      { apply slice_nonempty; rewrite ?basis_length; nia. }
      { intros s Hs. apply basis_in. now apply slice_in in Hs. }
      assert (c' = c) by congruence. subst c'. destruct HR as ((R1 & _) & _). rewrite (arrays_length _ _ _ R1). auto.
    - destruct (max_loop_ok op n H B HB HO (2 ^ n / B) 0 0 ltac:(lia)) as (m & Em & _ & Hle). exists m. split; [exact Em|]. exact Hle. }
  destruct Hrows as (rows & -> & Hle). cbn [bind].
  destruct (batch_loop_rel (good_column n H) (fun i => do c <- find_conn op (slice (basis n) i (i + B)); batch_columns n rows B c)
     (basis n) B (2 ^ n / B) 0 (repeat (repeat (0%Z, C0) rows) (num_of_states n))) as (cols & Ecols & Fcols).
  - intros j Hj. cbn [Nat.add].
    destruct (HO (slice (basis n) (j * B) (j * B + B))) as (K & c & Ec & HK & HR & _ & Hl).
    { apply slice_nonempty; rewrite ?basis_length; nia. }
    { intros s Hs. apply basis_in. now apply slice_in in Hs. }
    rewrite Ec. cbn [bind]. specialize (Hle j Hj c Ec). unfold batch_columns.
    destruct (Nat.ltb_spec rows (length (conns c))); [lia|]. eexists. split; [reflexivity|].
    assert (Ls : length (slice (basis n) (j * B) (j * B + B)) = B) by (apply slice_length; rewrite basis_length; nia).
    apply Forall2_nth_pairs; [now rewrite map_length, range_length|].
    intros i s Hs. assert (i < B) by (rewrite <- Ls; apply nth_error_Some; congruence).
    exists (padded_column n rows c i). split.
    + rewrite (map_nth_error (padded_column n rows c) i (range B) (d := i)); [reflexivity|].
      unfold range. rewrite (nth_error_nth' _ 0) by now rewrite seq_length. now rewrite seq_nth.
    + assert (LK : length (conns c) = K) by (destruct HR as ((R1 & _) & _); now apply (arrays_length _ _ _ R1)).
      apply (padded_good n H K c (slice (basis n) (j * B) (j * B + B))); auto; try lia.
      apply basis_in. eapply slice_in, nth_error_In, Hs.
  - rewrite repeat_length, basis_length. reflexivity.
  - rewrite basis_length. lia.
  - constructor.
  - rewrite Ecols. cbn [bind]. eexists. split; [reflexivity|]. split; [|now split].
    constructor; cbn; auto; try apply repeat_length.
Qed.

(** * Evaluating a machine *)
Local Open Scope R_scope.
Lemma mapM_rel {A B D} (f : B -> res D) (g : A -> D) : forall (l : list A) (l' : list B),
  Forall2 (fun a b => f b = Ok (g a)) l l' -> mapM f l' = Ok (map g l).
Proof.
  induction 1 as [|a b l l' E F IH]; [reflexivity|]. cbn [mapM map]. rewrite E. cbn [bind]. rewrite IH. reflexivity.
Qed.

Lemma Forall2_firstn {A B} (P : A -> B -> Prop) l l' : Forall2 P l l' -> forall k, Forall2 P (firstn k l) (firstn k l').
Proof. induction 1; intros [|k]; cbn [firstn]; constructor; auto. Qed.
Lemma Forall2_skipn {A B} (P : A -> B -> Prop) l l' : Forall2 P l l' -> forall k, Forall2 P (skipn k l) (skipn k l').
Proof. induction 1; intros [|k]; cbn [skipn]; auto. Qed.
Lemma Forall2_slice {A B} (P : A -> B -> Prop) l l' a b : Forall2 P l l' -> Forall2 P (slice l a b) (slice l' a b).
Proof. intros F. unfold slice. now apply Forall2_firstn, Forall2_skipn. Qed.

Lemma norm2_basis n lp : norm2 n lp = Rsum (fun s => born (lp s)) (basis n).
Proof. unfold norm2. apply Rsum_perm. symmetry. apply basis_perm. Qed.
Lemma norm2_pos n lp : 0 < norm2 n lp.
Proof.
  rewrite norm2_basis. destruct (basis n) as [|s l] eqn:E.
  { apply (f_equal (@length _)) in E. rewrite basis_length in E. pose proof (pow2_pos n). simpl in E. lia. }
  rewrite Rsum_cons. pose proof (Rsum_nonneg (fun s => born (lp s)) l). unfold born in *.
  pose proof (Cnorm2_exp_pos (lp s)). assert (forall a, In a l -> 0 <= Cnorm2 (Cexp (lp a))) by (intros; apply Cnorm2_nonneg).
  specialize (H H1). lra.
Qed.

(** Energy contribution of a state. *)
Definition contribution (n : nat) (H : list Z -> list Z -> C) (lp : list Z -> C) (s : list Z) : C :=
  Cscale (/ norm2 n lp) (Cexp (lp s) * Cconj (apply_matrix n H (fun t => Cexp (lp t)) s))%C.

Lemma np_index_in {A} (l : list A) k d : (0 <= k)%Z -> (Z.to_nat k < length l)%nat -> np_index l k = Ok (nth (Z.to_nat k) l d).
Proof.
  intros H1 H2. unfold np_index. destruct (Z.ltb_spec k 0); [lia|]. destruct (Z.ltb_spec k 0); [lia|].
  rewrite (nth_error_nth' _ d) by exact H2. reflexivity.
Qed.

Lemma Csum_map2_map {A} (f : A -> C -> C) (g : A -> C) l : Csum (fun z => z) (map2 f l (map g l)) = Csum (fun a => f a (g a)) l.
Proof. induction l as [|a l IH]; [reflexivity|]. cbn [map map2]. now rewrite !Csum_cons, IH. Qed.

Lemma state_energy_ok n H lp s col : In s (spin_configs n) -> good_column n H s col ->
  state_energy (map lp (basis n)) (norm2 n lp) col = Ok (contribution n H lp s, local_energy n H lp s).
Proof.
  intros Hs (Hi & (m & rest & Ecol) & HF). unfold state_energy.
  assert (Hidx : forall ic, In ic col -> (Z.to_nat (fst ic) < 2 ^ n)%nat).
  { intros ic Hic. specialize (Hi ic Hic). rewrite <- pow2_Z in Hi. lia. }
  rewrite (mapM_ok _ (fun ic => lp (nth (Z.to_nat (fst ic)) (basis n) []))).
  2: { intros ic Hic. specialize (Hidx ic Hic). specialize (Hi ic Hic).
       rewrite (np_index_in _ _ (lp [])) by (rewrite ?map_length, ?basis_length; lia). now rewrite map_nth. }
  cbn [bind].
  destruct (map (fun ic => lp (nth (Z.to_nat (fst ic)) (basis n) [])) col) as [|lv0 lvs] eqn:Em; [rewrite Ecol in Em; discriminate|].
  assert (E0 : lv0 = lp s).
  { rewrite Ecol in Em. cbn [map fst] in Em. rewrite (basis_nth n s Hs) in Em. congruence. }
  rewrite <- Em. rewrite !Csum_map2_map. subst lv0. f_equal. f_equal.
  - unfold contribution. f_equal.
    rewrite (Csum_ext _ (fun ic => Cconj (snd ic * Cexp (lp (nth (Z.to_nat (fst ic)) (basis n) []) + Cconj (lp s)))%C)).
    2: { intros ic _. rewrite Cconj_mult, <- Cexp_conj, Cconj_plus, Cconj_conj. reflexivity. }
    rewrite <- Csum_conj, (HF (fun t => Cexp (lp t + Cconj (lp s))%C)).
    unfold apply_matrix. rewrite !Csum_conj, <- Csum_scal. apply Csum_ext. intros t _.
    rewrite !Cconj_mult, <- !Cexp_conj, Cconj_plus, Cconj_conj, Cexp_plus. ring.
  - rewrite (HF (fun t => Cexp (lp t - lp s)%C)). unfold local_energy, apply_matrix, Cdiv. rewrite <- Csum_scal_r.
    apply Csum_ext. intros t _. rewrite Cexp_minus. unfold Cdiv. ring.
Qed.

Definition result_energy (n : nat) (H : list Z -> list Z -> C) (lp : list Z -> C) : C :=
  Csum (contribution n H lp) (spin_configs n).

Lemma machine_updated_ok n H lp e : good_exact n H e ->
  exists e', machine_updated lp e = Ok e' /\ good_exact n H e' /\ batch_size e' = batch_size e /\
    updates e' = S (updates e) /\
    probs e' = map (probability n lp) (basis n) /\
    norm_squared e' = norm2 n lp /\
    energies e' = map (contribution n H lp) (basis n) /\
    current_energy e' = result_energy n H lp /\
    current_variance e' = Rsum (fun s => probability n lp s *
      ((Re (local_energy n H lp s) - Re (result_energy n H lp)) * (Re (local_energy n H lp s) - Re (result_energy n H lp)))) (spin_configs n) /\
    grad_coefficients e' = map (fun s => (contribution n H lp s - RtoC (probability n lp s) * result_energy n H lp)%C) (basis n).
Proof.
  intros G. destruct G as [Gn Gb Gd Gs Gc Gw Ge Gv].
  unfold machine_updated, update_wave_function_arrays. rewrite Gn, Gs.
  rewrite (batch_loop_map _ lp (basis n)); auto using basis_length.
  cbn [bind]. cbv zeta.
  assert (Nb : basis n <> []).
  { intros E. apply (f_equal (@length _)) in E. rewrite basis_length in E. pose proof (pow2_pos n). simpl in E. lia. }
  assert (Nm : map lp (basis n) <> []) by (intros E; apply map_eq_nil in E; contradiction).
  destruct (normalised_by_norm (map lp (basis n)) Nm) as (l & El & Eexp & _).
  change (fun z => Cscale 2 z) with (Cscale 2) in El. rewrite El. cbn [bind].
  assert (En : exp l = norm2 n lp) by (rewrite Eexp, Rsum_map, norm2_basis; reflexivity).
  rewrite En.
  assert (Ep : map (fun z => exp (Re z - l)) (map (Cscale 2) (map lp (basis n))) = map (probability n lp) (basis n)).
  { rewrite !map_map. apply map_ext. intros s. unfold probability, born. rewrite Cnorm2_exp, <- En.
    unfold Rdiv. rewrite <- exp_Ropp, <- exp_plus. f_equal. }
  rewrite Ep. unfold update_local_energy. rewrite Gn.
  rewrite (batch_loop_map _ (fun s => (contribution n H lp s, local_energy n H lp s)) (basis n)); auto using basis_length.
  2: { rewrite combine_length. lia. }
  2: { intros i Hi. apply mapM_rel.
       assert (F : Forall2 (good_column n H) (slice (basis n) i (i + batch_size e)) (slice (columns e) i (i + batch_size e))) by now apply Forall2_slice.
       assert (I : forall s, In s (slice (basis n) i (i + batch_size e)) -> In s (spin_configs n)).
       { intros s Hs. apply basis_in. now apply slice_in in Hs. }
       induction F as [|s col ss cols HP F IH]; constructor.
       - apply state_energy_ok; auto. apply I. now left.
       - apply IH. intros x Hx. apply I. now right. }
  cbn [bind]. cbv zeta. rewrite !map_map. cbn [fst snd].
  assert (Ecur : Csum (fun z => z) (map (fun s => contribution n H lp s) (basis n)) = result_energy n H lp).
  { rewrite Csum_map. unfold result_energy. apply Csum_perm, basis_perm. }
  rewrite Ecur. eexists. split; [reflexivity|]. cbn [batch_size updates probs norm_squared energies current_energy current_variance grad_coefficients].
  split; [|split; [reflexivity|split; [reflexivity|split; [reflexivity|split; [reflexivity|split; [reflexivity|split; [reflexivity|split]]]]]]].
  - constructor; cbn; auto; rewrite map_length; apply basis_length.
  - rewrite <- (Rsum_perm _ _ _ (basis_perm n)). clear. induction (basis n) as [|s l IH]; [reflexivity|].
    cbn [map map2]. rewrite !Rsum_cons, IH. rewrite Re_minus. ring.
  - clear. induction (basis n) as [|s l IH]; [reflexivity|]. cbn [map map2]. now rewrite IH.
Qed.

Lemma update_all_ok n H machines : forall e, good_exact n H e ->
  exists e', update_all machines e = Ok e' /\ good_exact n H e' /\ batch_size e' = batch_size e /\
    updates e' = (length machines + updates e)%nat.
Proof.
  induction machines as [|m t IH]; intros e G; cbn [update_all].
  - exists e. now split.
  - destruct (machine_updated_ok n H m e G) as (e1 & E1 & G1 & B1 & U1 & _). rewrite E1. cbn [bind].
    destruct (IH e1 G1) as (e' & E' & G' & B' & U'). exists e'. split; [exact E'|]. split; [exact G'|]. split; [congruence|].
    rewrite U', U1. cbn [length]. lia.
Qed.

Lemma built_ok n H op batch past : (n <= 31)%nat -> operator_represents n H op -> good_batch_size n batch ->
  exists e, built n op batch past e /\ good_exact n H e /\ batch_size e = Nat.min batch (2 ^ n) /\ updates e = length past.
Proof.
  intros Hn HO HB. destruct (new_exact_ok n H op batch Hn HO HB) as (e0 & E0 & G0 & B0 & U0).
  destruct (update_all_ok n H past e0 G0) as (e & E & G & B & U). exists e. split; [now exists e0|].
  split; [exact G|]. split; [congruence|]. lia.
Qed.
Lemma built_good n H op batch past e : (n <= 31)%nat -> operator_represents n H op -> good_batch_size n batch ->
  built n op batch past e -> good_exact n H e /\ batch_size e = Nat.min batch (2 ^ n) /\ updates e = length past.
Proof.
  intros Hn HO HB (e0 & E0 & E). destruct (built_ok n H op batch past Hn HO HB) as (e' & (e0' & E0' & E') & R).
  assert (e0' = e0) by congruence. subst e0'. assert (e' = e) by congruence. now subst.
Qed.

(** * The energy *)
Lemma Cconj_scale r z : Cconj (Cscale r z) = Cscale r (Cconj z).
Proof. apply C_eq; unfold Cconj, Cscale, Re, Im; cbn [fst snd]; ring. Qed.

Lemma Csum_scale {A} r (f : A -> C) l : Csum (fun a => Cscale r (f a)) l = Cscale r (Csum f l).
Proof.
  rewrite (Csum_ext _ (fun a => (RtoC r * f a)%C)) by (intros; apply Cscale_RtoC). rewrite Csum_scal. symmetry. apply Cscale_RtoC.
Qed.

Lemma result_energy_conj n H lp : result_energy n H lp = Cconj (expectation n H lp).
Proof.
  unfold result_energy, expectation, contribution. rewrite Cconj_scale, Csum_scale. f_equal.
  unfold braket. rewrite Csum_conj. apply Csum_ext. intros s _. rewrite Cconj_mult, Cconj_conj. reflexivity.
Qed.

Lemma braket_hermitian n H psi : hermitian n H -> Cconj (braket n H psi) = braket n H psi.
Proof.
  intros HH. unfold braket, apply_matrix. rewrite Csum_conj.
  rewrite (Csum_ext _ (fun s => Csum (fun t => (psi s * Cconj (H s t) * Cconj (psi t))%C) (spin_configs n))).
  2: { intros s _. rewrite Cconj_mult, Cconj_conj, Csum_conj, <- Csum_scal. apply Csum_ext. intros t _. rewrite Cconj_mult. ring. }
  rewrite Csum_exchange. apply Csum_ext. intros t Ht. rewrite <- Csum_scal. apply Csum_ext. intros s Hs.
  rewrite (HH t s Ht Hs). ring.
Qed.

Lemma conj_fixed_real z : Cconj z = z -> Im z = 0.
Proof. intros E. apply (f_equal Im) in E. rewrite Im_conj in E. lra. Qed.

Lemma expectation_real n H lp : hermitian n H -> Im (expectation n H lp) = 0 /\ result_energy n H lp = expectation n H lp.
Proof.
  intros HH. assert (E : Cconj (expectation n H lp) = expectation n H lp).
  { unfold expectation. rewrite Cconj_scale. now rewrite braket_hermitian. }
  split; [now apply conj_fixed_real|]. rewrite result_energy_conj. exact E.
Qed.

(** * Bounds *)
Lemma Cmod_nonneg z : 0 <= Cmod z.
Proof. apply sqrt_pos. Qed.
Lemma Cmod_sqr z : Cmod z * Cmod z = Cnorm2 z.
Proof. apply sqrt_sqrt, Cnorm2_nonneg. Qed.
Lemma Cnorm2_mult a b : Cnorm2 (a * b)%C = Cnorm2 a * Cnorm2 b.
Proof. unfold Cnorm2, Cmult. cbn [fst snd]. ring. Qed.
Lemma Cnorm2_conj a : Cnorm2 (Cconj a) = Cnorm2 a.
Proof. unfold Cnorm2, Cconj. cbn [fst snd]. ring. Qed.
Lemma Cmod_mult a b : Cmod (a * b)%C = Cmod a * Cmod b.
Proof. unfold Cmod. rewrite Cnorm2_mult. apply sqrt_mult; apply Cnorm2_nonneg. Qed.
Lemma Cmod_conj a : Cmod (Cconj a) = Cmod a.
Proof. unfold Cmod. now rewrite Cnorm2_conj. Qed.
Lemma Re_le_Cmod z : Rabs (Re z) <= Cmod z.
Proof.
  unfold Cmod. rewrite <- sqrt_Rsqr_abs. apply sqrt_le_1_alt. unfold Cnorm2, Rsqr, Re. nra.
Qed.
Lemma Rabs_Rsum {A} (f : A -> R) l : Rabs (Rsum f l) <= Rsum (fun a => Rabs (f a)) l.
Proof.
  induction l as [|a l IH]; [unfold Rsum; simpl; rewrite Rabs_R0; lra|]. rewrite !Rsum_cons.
  eapply Rle_trans; [apply Rabs_triang|]. lra.
Qed.
Lemma Rsum_le {A} (f g : A -> R) l : (forall a, In a l -> f a <= g a) -> Rsum f l <= Rsum g l.
Proof.
  induction l as [|a l IH]; intros H; [unfold Rsum; simpl; lra|]. rewrite !Rsum_cons.
  pose proof (H a (or_introl eq_refl)). pose proof (IH (fun x Hx => H x (or_intror Hx))). lra.
Qed.

Lemma braket_bound n H psi M : hermitian n H ->
  (forall s, In s (spin_configs n) -> Rsum (fun t => Cmod (H s t)) (spin_configs n) <= M) ->
  Rabs (Re (braket n H psi)) <= M * Rsum (fun s => Cnorm2 (psi s)) (spin_configs n).
Proof.
  intros HH HM. unfold braket, apply_matrix. rewrite Re_Csum.
  eapply Rle_trans; [apply Rabs_Rsum|].
  apply Rle_trans with (Rsum (fun s => Rsum (fun t => Cmod (H s t) * (Cnorm2 (psi s) + Cnorm2 (psi t)) / 2) (spin_configs n)) (spin_configs n)).
  - apply Rsum_le. intros s Hs. rewrite <- Csum_scal, Re_Csum. eapply Rle_trans; [apply Rabs_Rsum|].
    apply Rsum_le. intros t Ht. eapply Rle_trans; [apply Re_le_Cmod|]. rewrite !Cmod_mult, Cmod_conj.
    pose proof (Cmod_nonneg (H s t)). pose proof (Cmod_nonneg (psi s)). pose proof (Cmod_nonneg (psi t)).
    rewrite <- (Cmod_sqr (psi s)), <- (Cmod_sqr (psi t)).
    pose proof (Rle_0_sqr (Cmod (psi s) - Cmod (psi t))) as Q. unfold Rsqr in Q.
    assert (Cmod (H s t) * (2 * (Cmod (psi s) * Cmod (psi t))) <= Cmod (H s t) * (Cmod (psi s) * Cmod (psi s) + Cmod (psi t) * Cmod (psi t)))
      by (apply Rmult_le_compat_l; lra). lra.
  - set (l := spin_configs n) in *.
    assert (E : Rsum (fun s => Rsum (fun t => Cmod (H s t) * (Cnorm2 (psi s) + Cnorm2 (psi t)) / 2) l) l =
                Rsum (fun s => Cnorm2 (psi s) * Rsum (fun t => Cmod (H s t)) l) l).
    { transitivity (Rsum (fun s => Rsum (fun t => Cmod (H s t) * Cnorm2 (psi s) / 2) l) l +
                    Rsum (fun s => Rsum (fun t => Cmod (H s t) * Cnorm2 (psi t) / 2) l) l).
      - rewrite <- Rsum_plus. apply Rsum_ext. intros s _. rewrite <- Rsum_plus. apply Rsum_ext. intros t _. lra.
      - rewrite (Rsum_exchange (fun s t => Cmod (H s t) * Cnorm2 (psi t) / 2)).
        rewrite <- Rsum_plus. apply Rsum_ext. intros s Hs. rewrite <- Rsum_plus, <- Rsum_scal. apply Rsum_ext. intros t Ht.
        rewrite (HH t s Ht Hs), Cmod_conj. lra. }
    rewrite E, <- Rsum_scal. apply Rsum_le. intros s Hs.
    rewrite (Rmult_comm M). apply Rmult_le_compat_l; [apply Cnorm2_nonneg|auto].
Qed.

Lemma expectation_bound n H lp M : hermitian n H ->
  (forall s, In s (spin_configs n) -> Rsum (fun t => Cmod (H s t)) (spin_configs n) <= M) ->
  - M <= Re (expectation n H lp) <= M.
Proof.
  intros HH HM. pose proof (braket_bound n H (fun s => Cexp (lp s)) M HH HM) as B.
  change (Rsum (fun s => Cnorm2 ((fun s0 => Cexp (lp s0)) s)) (spin_configs n)) with (norm2 n lp) in B.
  pose proof (norm2_pos n lp) as P.
  assert (B' : - (M * norm2 n lp) <= Re (braket n H (fun s => Cexp (lp s))) <= M * norm2 n lp)
    by (revert B; unfold Rabs; destruct Rcase_abs; intros; lra). clear B.
  unfold expectation, Re, Cscale in *. cbn [fst]. set (x := fst (braket n H (fun s => Cexp (lp s)))) in *.
  assert (0 < / norm2 n lp) by now apply Rinv_0_lt_compat.
  assert (/ norm2 n lp * norm2 n lp = 1) by (field; lra).
  split.
  - apply (Rmult_le_reg_l (norm2 n lp)); [exact P|]. replace (norm2 n lp * (/ norm2 n lp * x)) with x by (field; lra). lra.
  - apply (Rmult_le_reg_l (norm2 n lp)); [exact P|]. replace (norm2 n lp * (/ norm2 n lp * x)) with x by (field; lra). lra.
Qed.

Lemma variational_principle n H lp lambda :
  (forall psi, lambda * Rsum (fun s => Cnorm2 (psi s)) (spin_configs n) <= Re (braket n H psi)) ->
  lambda <= Re (expectation n H lp).
Proof.
  intros HL. specialize (HL (fun s => Cexp (lp s))). change (Rsum _ _) with (norm2 n lp) in HL.
  pose proof (norm2_pos n lp) as P. unfold expectation, Re, Cscale in *. cbn [fst].
  apply (Rmult_le_reg_l (norm2 n lp)); [exact P|].
  set (x := fst (braket n H (fun s => Cexp (lp s)))) in *.
  replace (norm2 n lp * (/ norm2 n lp * x)) with x by (field; lra). lra.
Qed.

(** * Adding a constant *)
Lemma norm2_shift n lp k : norm2 n (fun s => (lp s + k)%C) = exp (2 * Re k) * norm2 n lp.
Proof.
  unfold norm2, born. rewrite <- Rsum_scal. apply Rsum_ext. intros s _. rewrite Cexp_plus, Cnorm2_mult, (Cnorm2_exp k). ring.
Qed.
Lemma probability_shift n lp k s : probability n (fun s => (lp s + k)%C) s = probability n lp s.
Proof.
  unfold probability. rewrite norm2_shift. unfold born. rewrite Cexp_plus, Cnorm2_mult, (Cnorm2_exp k).
  pose proof (norm2_pos n lp). pose proof (exp_pos (2 * Re k)). field. split; lra.
Qed.
Lemma contribution_shift n H lp k s : contribution n H (fun s => (lp s + k)%C) s = contribution n H lp s.
Proof.
  unfold contribution. rewrite norm2_shift. unfold apply_matrix.
  rewrite (Csum_ext _ (fun t => (H s t * Cexp (lp t) * Cexp k)%C)) by (intros; rewrite Cexp_plus; ring).
  rewrite Csum_scal_r, Cexp_plus, Cconj_mult. set (a := Csum _ _).
  replace (Cexp (lp s) * Cexp k * (Cconj a * Cconj (Cexp k)))%C with ((Cexp k * Cconj (Cexp k)) * (Cexp (lp s) * Cconj a))%C by ring.
  rewrite Cmult_conj, Cnorm2_exp. generalize (Cexp (lp s) * Cconj a)%C. intros z.
  pose proof (norm2_pos n lp). pose proof (exp_pos (2 * Re k)).
  apply C_eq; unfold Cscale, RtoC, Cmult, Re, Im; cbn [fst snd]; unfold Re in *; field; split; lra.
Qed.
Lemma result_energy_shift n H lp k : result_energy n H (fun s => (lp s + k)%C) = result_energy n H lp.
Proof. unfold result_energy. apply Csum_ext. intros s _. apply contribution_shift. Qed.

Lemma variational_upper n H lp lambda :
  (forall psi, Re (braket n H psi) <= lambda * Rsum (fun s => Cnorm2 (psi s)) (spin_configs n)) ->
  Re (expectation n H lp) <= lambda.
Proof.
  intros HL. specialize (HL (fun s => Cexp (lp s))). change (Rsum _ _) with (norm2 n lp) in HL.
  pose proof (norm2_pos n lp) as P. unfold expectation, Re, Cscale in *. cbn [fst].
  apply (Rmult_le_reg_l (norm2 n lp)); [exact P|].
  set (x := fst (braket n H (fun s => Cexp (lp s)))) in *.
  replace (norm2 n lp * (/ norm2 n lp * x)) with x by (field; lra). lra.
Qed.
