(** Proofs about EqualSpinsModel. *)
From Coq Require Import List ZArith Reals Bool Arith Lia Lra Floats.SpecFloat.
From Verif Require Import Base Cplx AutoregressiveModel AutoregressiveSpec AutoregressiveProofs LatticeSpec EqualSpinsModel EqualSpinsSpec.
Import ListNotations.

(** * The counts *)

Lemma cumsum_length rows : forall acc, length (cumsum_exclusive acc rows) = length rows.
Proof. induction rows; intros; simpl; auto. Qed.

Lemma cumsum_spins s : Forall is_spin s -> forall a b i, i < length s ->
  nth i (cumsum_exclusive [a; b] (map one_hot_input s)) [] =
  [a + Z.of_nat (ups (firstn i s)); b + Z.of_nat (downs (firstn i s))]%Z.
Proof.
  induction 1 as [|v s Hv Hs IH]; intros a b i Hi; [simpl in Hi; lia|].
  destruct i as [|i]; cbn [map cumsum_exclusive nth firstn].
  - unfold ups, downs. cbn. f_equal; [lia|f_equal; lia].
  - cbn [length] in Hi.
    assert (E : exists p q, one_hot_input v = [p; q] /\ (p = if (v =? 1)%Z then 1 else 0)%Z /\ (q = if (v =? 1)%Z then 0 else 1)%Z).
    { destruct Hv as [-> | ->]; (exists 1%Z, 0%Z; repeat split; reflexivity) || (exists 0%Z, 1%Z; repeat split; reflexivity). }
    destruct E as (p & q & -> & Ep & Eq). cbn [map2]. rewrite IH by lia.
    unfold ups, downs. cbn [count_occ]. destruct Hv as [-> | ->]; cbn in Ep, Eq; subst.
    + destruct (Z.eq_dec 1 1); [|lia]. destruct (Z.eq_dec 1 (-1)); [lia|]. f_equal; [lia|f_equal; lia].
    + destruct (Z.eq_dec (-1) 1); [lia|]. destruct (Z.eq_dec (-1) (-1)); [|lia]. f_equal; [lia|f_equal; lia].
Qed.

Lemma half_nth s i : Forall is_spin s -> i < length s ->
  nth i (reached_half s) [] = [length s <=? 2 * ups (firstn i s); length s <=? 2 * downs (firstn i s)].
Proof.
  intros F H. unfold reached_half.
  change (@nil bool) with (map (fun c => Z.of_nat (length s) <=? 2 * c)%Z []).
  rewrite map_nth, cumsum_spins by assumption. cbn [map].
  f_equal; [|f_equal]; apply eq_true_iff_eq; rewrite Z.leb_le, Nat.leb_le; lia.
Qed.

Lemma half_length s : length (reached_half s) = length s.
Proof. unfold reached_half. now rewrite map_length, cumsum_length, map_length. Qed.

Lemma ups_downs s : Forall is_spin s -> ups s + downs s = length s.
Proof.
  unfold ups, downs. induction 1 as [|v s Hv Hs IH]; [reflexivity|]. cbn [count_occ length].
  destruct Hv as [-> | ->]; destruct (Z.eq_dec _ 1), (Z.eq_dec _ (-1)); lia.
Qed.

(** Number of sites before [i] with the category [c]. *)
Definition before (s : list Z) (i c : nat) : nat := if c =? 0 then ups (firstn i s) else downs (firstn i s).

Lemma entry_half s i c : Forall is_spin s -> i < length s -> c < 2 -> nth c (nth i (reached_half s) []) false = (length s <=? 2 * before s i c).
Proof. intros F H Hc. rewrite half_nth by assumption. destruct c as [|[|c]]; [reflexivity|reflexivity|lia]. Qed.

Lemma nth_map2 {A B D} (f : A -> B -> D) l1 : forall l2 i a b d, i < length l1 -> i < length l2 -> nth i (map2 f l1 l2) d = f (nth i l1 a) (nth i l2 b).
Proof.
  induction l1 as [|x l1 IH]; intros [|y l2] [|i] a b d H1 H2; cbn [length] in *; try lia; [reflexivity|].
  cbn [map2 nth]. apply IH; lia.
Qed.

Lemma entry_equal x s i c : Forall is_spin s -> i < length s -> length x = length s -> length (nth i x []) = 2 -> c < 2 ->
  nth c (nth i (equal_up_down_spins x s) []) C0 =
  if length s <=? 2 * before s i c then (nth c (nth i x []) C0 + RtoC LOG_ZERO)%C else nth c (nth i x []) C0.
Proof.
  intros F H Lx Lr Hc. unfold equal_up_down_spins.
  rewrite (nth_map2 _ _ _ _ [] []) by (rewrite ?half_length; lia).
  rewrite (nth_map2 _ _ _ _ C0 false) by (rewrite ?half_nth by assumption; cbn [length]; lia).
  rewrite entry_half by assumption.
  destruct (length s <=? 2 * before s i c).
  - now rewrite Rmult_1_r.
  - rewrite Rmult_0_r. apply C_eq; unfold Re, Im, Cplus, RtoC; cbn [fst snd]; ring.
Qed.

Lemma count_firstn_step (s : list Z) v : forall i, i < length s -> nth i s 0%Z = v ->
  count_occ Z.eq_dec (firstn (S i) s) v = S (count_occ Z.eq_dec (firstn i s) v).
Proof.
  induction s as [|a s IH]; intros i H E; [simpl in H; lia|].
  destruct i as [|i].
  - cbn in E. subst. cbn [firstn count_occ]. destruct (Z.eq_dec v v); [reflexivity|contradiction].
  - cbn [nth length] in *. change (firstn (S (S i)) (a :: s)) with (a :: firstn (S i) s). change (firstn (S i) (a :: s)) with (a :: firstn i s).
    cbn [count_occ]. destruct (Z.eq_dec a v); rewrite IH; auto; lia.
Qed.

Lemma count_firstn_le (s : list Z) v : forall i, count_occ Z.eq_dec (firstn i s) v <= count_occ Z.eq_dec s v.
Proof.
  induction s as [|a s IH]; intros [|i]; cbn [firstn count_occ]; try lia. destruct (Z.eq_dec a v); specialize (IH i); lia.
Qed.

(** The last site carrying a value. *)
Lemma last_occurrence (s : list Z) v : 0 < count_occ Z.eq_dec s v ->
  exists i, i < length s /\ nth i s 0%Z = v /\ S (count_occ Z.eq_dec (firstn i s) v) = count_occ Z.eq_dec s v.
Proof.
  induction s as [|a s IH]; cbn [count_occ]; [lia|]. intros H.
  destruct (Nat.eq_dec (count_occ Z.eq_dec s v) 0) as [E|E].
  - destruct (Z.eq_dec a v) as [->|N]; [|lia]. exists 0. cbn. repeat split; lia.
  - destruct IH as (i & Hi & Hv & Hc); [lia|]. exists (S i). cbn [length nth firstn count_occ]. repeat split; [lia|assumption|].
    destruct (Z.eq_dec a v); lia.
Qed.

Lemma before_category s i : is_spin (nth i s 0%Z) -> before s i (category (nth i s 0%Z)) = count_occ Z.eq_dec (firstn i s) (nth i s 0%Z).
Proof. intros [E|E]; rewrite E; reflexivity. Qed.

Lemma category_lt v : category v < 2.
Proof. unfold category. destruct (v =? 1)%Z; lia. Qed.

Lemma LOG_ZERO_neg : (LOG_ZERO < 0)%R.
Proof. unfold LOG_ZERO. apply IZR_lt. reflexivity. Qed.

Lemma avoids_iff s : Forall is_spin s ->
  (forall i, i < length s -> 2 * before s i (category (nth i s 0%Z)) < length s) <-> (2 * ups s < length s + 2 /\ 2 * downs s < length s + 2).
Proof.
  intros F. assert (Fi : forall i, i < length s -> is_spin (nth i s 0%Z)).
  { intros i H. rewrite Forall_forall in F. apply F. now apply nth_In. }
  split.
  - intros H.
    assert (Q : forall v, is_spin v -> 2 * count_occ Z.eq_dec s v < length s + 2).
    { intros v Hv. destruct (Nat.eq_dec (count_occ Z.eq_dec s v) 0) as [E|E]; [lia|].
      destruct (last_occurrence s v) as (i & Hi & Ev & Ec); [lia|]. specialize (H i Hi).
      rewrite before_category in H by auto. rewrite Ev in H. lia. }
    split; [apply (Q 1%Z); now left|apply (Q (-1)%Z); now right].
  - intros [HU HD] i Hi. rewrite before_category by auto.
    assert (E := count_firstn_step s _ i Hi eq_refl). assert (L := count_firstn_le s (nth i s 0%Z) (S i)).
    unfold ups, downs in *. destruct (Fi i Hi) as [V|V]; rewrite V in *; lia.
Qed.

Lemma layer_sector x s : Forall is_spin s -> length x = length s -> Forall (fun r => length r = 2) x ->
  (forall i, i < length s -> nth (category (nth i s 0%Z)) (nth i (equal_up_down_spins x s) []) C0 = nth (category (nth i s 0%Z)) (nth i x []) C0)
  <-> (2 * ups s < length s + 2 /\ 2 * downs s < length s + 2).
Proof.
  intros F Lx Fx. rewrite <- avoids_iff by assumption.
  assert (L2 : forall i, i < length s -> length (nth i x []) = 2).
  { intros i H. rewrite Forall_forall in Fx. apply Fx. apply nth_In. lia. }
  split; intros H i Hi; specialize (H i Hi); pose proof (L2 i Hi) as Li;
    pose proof (entry_equal x s i (category (nth i s 0%Z)) F Hi Lx Li (category_lt _)) as E.
  - rewrite H in E. destruct (Nat.leb_spec (length s) (2 * before s i (category (nth i s 0%Z)))); [|assumption].
    exfalso. apply (f_equal Re) in E. unfold Re, Cplus, RtoC in E. cbn [fst] in E. pose proof LOG_ZERO_neg. lra.
  - rewrite E. destruct (Nat.leb_spec (length s) (2 * before s i (category (nth i s 0%Z)))); [lia|reflexivity].
Qed.

Lemma sector_even x s n : spins (2 * n) s -> length x = 2 * n -> Forall (fun r => length r = 2) x ->
  (forall i, i < 2 * n -> nth (category (nth i s 0%Z)) (nth i (equal_up_down_spins x s) []) C0 = nth (category (nth i s 0%Z)) (nth i x []) C0)
  <-> ups s = downs s.
Proof.
  intros [L F] Lx Fx. rewrite <- L. rewrite layer_sector by (auto; lia). pose proof (ups_downs s F). lia.
Qed.

Lemma sector_odd x s n : spins (2 * n + 1) s -> length x = 2 * n + 1 -> Forall (fun r => length r = 2) x ->
  (forall i, i < 2 * n + 1 -> nth (category (nth i s 0%Z)) (nth i (equal_up_down_spins x s) []) C0 = nth (category (nth i s 0%Z)) (nth i x []) C0)
  <-> (ups s = S (downs s) \/ downs s = S (ups s)).
Proof.
  intros [L F] Lx Fx. rewrite <- L. rewrite layer_sector by (auto; lia). pose proof (ups_downs s F). lia.
Qed.

Lemma entries x s i : Forall is_spin s -> i < length s -> length x = length s -> length (nth i x []) = 2 ->
  nth 0 (nth i (equal_up_down_spins x s) []) C0 =
    (nth 0 (nth i x []) C0 + RtoC (if length s <=? 2 * ups (firstn i s) then LOG_ZERO else 0))%C /\
  nth 1 (nth i (equal_up_down_spins x s) []) C0 =
    (nth 1 (nth i x []) C0 + RtoC (if length s <=? 2 * downs (firstn i s) then LOG_ZERO else 0))%C /\
  ~ (length s <= 2 * ups (firstn i s) /\ length s <= 2 * downs (firstn i s)).
Proof.
  intros F H Lx Lr.
  assert (N : ~ (length s <= 2 * ups (firstn i s) /\ length s <= 2 * downs (firstn i s))).
  { assert (U := ups_downs (firstn i s)). rewrite firstn_length_le in U by lia.
    assert (F' : Forall is_spin (firstn i s)). { rewrite <- (firstn_skipn i s), Forall_app in F. tauto. }
    specialize (U F'). lia. }
  assert (Z : forall z : C, z = (z + RtoC 0)%C) by (intros z; apply C_eq; unfold Re, Im, Cplus, RtoC; cbn [fst snd]; ring).
  split; [|split; [|exact N]].
  - rewrite entry_equal by (auto; lia). unfold before. cbn [Nat.eqb]. destruct (length s <=? _); [reflexivity|apply Z].
  - rewrite entry_equal by (auto; lia). unfold before. cbn [Nat.eqb]. destruct (length s <=? _); [reflexivity|apply Z].
Qed.

(** * The machine with the option *)

Lemma masked_row net s i : i < length s ->
  masked_net net s i = map2 (fun z (b : bool) => (z + RtoC (LOG_ZERO * (if b then 1 else 0))%R)%C) (net s i) (nth i (reached_half s) []).
Proof.
  intros H. unfold masked_net, equal_up_down_spins.
  rewrite (nth_map2 _ _ _ _ [] []) by (rewrite ?half_length, ?map_length; unfold range; rewrite ?seq_length; lia).
  rewrite (nth_indep _ [] (net s 0)) by (rewrite map_length; unfold range; rewrite seq_length; lia).
  rewrite map_nth. unfold range. now rewrite seq_nth by lia.
Qed.

Lemma half_row_length s i : i < length s -> length (nth i (reached_half s) []) = 2.
Proof.
  intros H. unfold reached_half.
  change (@nil bool) with (map (fun c => Z.of_nat (length s) <=? 2 * c)%Z []). rewrite map_nth, map_length.
  assert (G : forall rows acc j, length acc = 2 -> Forall (fun r : list Z => length r = 2) rows -> j < length rows -> length (nth j (cumsum_exclusive acc rows) []) = 2).
  { induction rows as [|r rows IH]; intros acc j La Fr Hj; cbn [length] in *; [lia|]. inversion Fr; subst.
    destruct j as [|j]; cbn [cumsum_exclusive nth]; [assumption|]. apply IH; auto; [|lia]. rewrite Base.map2_length. lia. }
  apply G; [reflexivity| |now rewrite map_length]. apply Forall_forall. intros r Hr. apply in_map_iff in Hr. destruct Hr as (v & <- & _). reflexivity.
Qed.

Lemma masked_length net s i : length (net s i) = 2 -> i < length s -> length (masked_net net s i) = 2.
Proof. intros L H. rewrite masked_row, Base.map2_length, half_row_length by assumption. lia. Qed.

(** Beyond the last site anything. *)
Definition padded (net : list Z -> nat -> list C) (s : list Z) (i : nat) : list C :=
  if i <? length s then masked_net net s i else [C0; C0].

Lemma padded_predictions net s : predictions (masked_net net) s = predictions (padded net) s.
Proof.
  unfold predictions. f_equal. apply map_ext_in. intros i Hi. unfold range in Hi. apply in_seq in Hi.
  unfold conditional_log_wave_function, padded. now destruct (Nat.ltb_spec i (length s)); [|lia].
Qed.

Lemma padded_length net s i : (forall s i, length (net s i) = 2) -> length (padded net s i) = 2.
Proof. intros L. unfold padded. destruct (Nat.ltb_spec i (length s)); [now apply masked_length|reflexivity]. Qed.

Lemma cumsum_prefix rows1 : forall rows2 acc i, i <= length rows1 -> length rows1 = length rows2 -> firstn i rows1 = firstn i rows2 ->
  nth i (cumsum_exclusive acc rows1) [] = nth i (cumsum_exclusive acc rows2) [].
Proof.
  induction rows1 as [|r rows1 IH]; intros [|r' rows2] acc i Hi L E; cbn [length] in *; try lia; try reflexivity.
  destruct i as [|i]; [reflexivity|]. cbn [firstn] in E. injection E as <- E. cbn [cumsum_exclusive nth]. apply IH; auto; lia.
Qed.

Lemma seq_split n b i a : seq 0 n = b ++ i :: a -> b = seq 0 i /\ i < n.
Proof.
  intros E. assert (Lb : length b = i).
  { assert (nth (length b) (seq 0 n) n = i) by (rewrite E, app_nth2, Nat.sub_diag by lia; reflexivity).
    assert (L := f_equal (@length nat) E). rewrite app_length, seq_length in L. cbn in L. rewrite seq_nth in H by lia. lia. }
  assert (L := f_equal (@length nat) E). rewrite app_length, seq_length in L. cbn in L.
  split; [|lia]. rewrite <- Lb. clear Lb.
  assert (F : firstn (length b) (seq 0 n) = b) by (rewrite E, firstn_app, Nat.sub_diag, firstn_all, app_nil_r; reflexivity).
  rewrite <- F at 1. replace n with (length b + (n - length b)) by lia. rewrite seq_app, firstn_app, seq_length, Nat.sub_diag.
  rewrite firstn_all2 by (rewrite seq_length; lia). cbn [firstn]. apply app_nil_r.
Qed.

Lemma firstn_agree i : forall s t : list Z, i <= length s -> i <= length t -> (forall j, j < i -> nth j s 0%Z = nth j t 0%Z) -> firstn i s = firstn i t.
Proof.
  induction i as [|i IH]; intros [|a s] [|b t] Hs Ht H; cbn [length] in *; try lia; try reflexivity.
  cbn [firstn]. f_equal; [apply (H 0); lia|]. apply IH; try lia. intros j Hj. apply (H (S j)). lia.
Qed.

Lemma masked_autoregressive n net : autoregressive n (seq 0 n) net -> autoregressive n (seq 0 n) (masked_net net).
Proof.
  intros A b i a E s t Ls Lt H. specialize (A b i a E s t Ls Lt H).
  apply seq_split in E. destruct E as [-> Hi].
  rewrite !masked_row by lia. rewrite A. f_equal. unfold reached_half.
  change (@nil bool) with (map (fun c => Z.of_nat (length s) <=? 2 * c)%Z []) at 1.
  change (@nil bool) with (map (fun c => Z.of_nat (length t) <=? 2 * c)%Z []).
  rewrite !map_nth. rewrite Ls, Lt. f_equal. apply cumsum_prefix; rewrite ?map_length; try lia.
  rewrite !firstn_map. f_equal. apply firstn_agree; try lia. intros j Hj. apply H. apply in_seq. lia.
Qed.

Lemma visits_seq n : visits_once n (seq 0 n).
Proof. split; [apply seq_NoDup|]. intros i. rewrite in_seq. lia. Qed.

Lemma masked_normalised n net : autoregressive n (seq 0 n) net -> (forall s i, length (net s i) = 2) ->
  Rsum (fun s => born (predictions (masked_net net) s)) (spin_configs n) = 1%R.
Proof.
  intros A L. rewrite (Rsum_ext _ (fun s => born (predictions (padded net) s))) by (intros; now rewrite padded_predictions).
  apply (normalised_wave_function n (seq 0 n)); [apply visits_seq| |intros; now apply padded_length].
  intros b i a E s t Ls Lt H. unfold padded. rewrite Ls, Lt.
  rewrite (masked_autoregressive n net A b i a E s t Ls Lt H). reflexivity.
Qed.

Lemma cond_bound net s i c : length (net s i) = 2 -> c < 2 ->
  (exp (2 * Re (nth c (conditional_log_wave_function net s i) C0)) <= 1)%R /\
  (exp (2 * Re (nth c (conditional_log_wave_function net s i) C0)) <= exp (2 * (Re (nth c (net s i) C0) - Re (nth (1 - c) (net s i) C0))))%R.
Proof.
  intros L Hc. assert (P := cond_prob_sum net s i L). unfold cond_prob in P.
  change (cat 1) with 0 in P. change (cat (-1)) with 1 in P.
  destruct (normalize_complex_shift 2 (net s i)) as [k E]. unfold conditional_log_wave_function in *. rewrite E in *.
  destruct (net s i) as [|z [|w [|? ?]]]; try discriminate. cbn [map nth] in P.
  assert (Q : forall z w : C, (exp (2 * Re (z - RtoC k)%C) + exp (2 * Re (w - RtoC k)%C) = 1 ->
    exp (2 * Re (z - RtoC k)%C) <= 1 /\ exp (2 * Re (z - RtoC k)%C) <= exp (2 * (Re z - Re w)))%R).
  { clear. intros z w P. pose proof (exp_pos (2 * Re (z - RtoC k)%C)). pose proof (exp_pos (2 * Re (w - RtoC k)%C)).
    split; [lra|].
    replace (2 * (Re z - Re w))%R with (2 * Re (z - RtoC k)%C + - (2 * Re (w - RtoC k)%C))%R by (unfold Re, Cminus, RtoC; cbn [fst]; ring).
    rewrite exp_plus, exp_Ropp.
    assert (1 <= / exp (2 * Re (w - RtoC k)%C))%R.
    { apply Rmult_le_reg_l with (exp (2 * Re (w - RtoC k)%C)); [assumption|]. rewrite Rinv_r by lra. lra. }
    assert (0 <= exp (2 * Re (z - RtoC k)%C))%R by lra. nra. }
  destruct c as [|[|c]]; [| |lia]; cbn [map nth Nat.sub].
  - now apply Q.
  - apply Q. lra.
Qed.

Lemma Rprod_bound {A} (f : A -> R) l a b : (forall x, In x l -> 0 <= f x <= 1)%R -> In a l -> (f a <= b)%R -> (Rprod f l <= b)%R.
Proof.
  assert (N : forall l, (forall x, In x l -> 0 <= f x <= 1)%R -> (0 <= Rprod f l <= 1)%R).
  { clear. induction l as [|x l IH]; intros H.
    - unfold Rprod; cbn; lra.
    - change (Rprod f (x :: l)) with (f x * Rprod f l)%R. specialize (H x (or_introl eq_refl)) as Hx.
      assert (0 <= Rprod f l <= 1)%R by (apply IH; intros; apply H; now right). nra. }
  induction l as [|x l IH]; intros H I B; [destruct I|].
  change (Rprod f (x :: l)) with (f x * Rprod f l)%R.
  assert (Hx := H x (or_introl eq_refl)). assert (Hl := N l (fun y Hy => H y (or_intror Hy))).
  destruct I as [->|I]; [nra|]. assert (Rprod f l <= b)%R by (apply IH; auto; intros; apply H; now right). nra.
Qed.

Lemma outside_bound net s D : spins (length s) s -> (forall i, length (net s i) = 2) ->
  (forall i, i < length s -> (Rabs (Re (nth 0 (net s i) C0) - Re (nth 1 (net s i) C0)) <= D)%R) ->
  ~ (2 * ups s < length s + 2 /\ 2 * downs s < length s + 2) ->
  (born (predictions (masked_net net) s) <= exp (2 * (D + LOG_ZERO)))%R.
Proof.
  intros [_ F] L HD HN.
  assert (Lp : forall i, length (padded net s i) = 2).
  { intros i. unfold padded. destruct (Nat.ltb_spec i (length s)); [now apply masked_length|reflexivity]. }
  rewrite padded_predictions, born_predictions by auto.
  assert (X : exists i, i < length s /\ ~ 2 * before s i (category (nth i s 0%Z)) < length s).
  { rewrite <- avoids_iff in HN by assumption.
    assert (G : forall m, (exists i, i < m /\ ~ 2 * before s i (category (nth i s 0%Z)) < length s) \/
      (forall i, i < m -> 2 * before s i (category (nth i s 0%Z)) < length s)).
    { induction m as [|m [(i & Hi & Q)|IH]].
      - right. lia.
      - left. exists i. split; [lia|assumption].
      - destruct (lt_dec (2 * before s m (category (nth m s 0%Z))) (length s)).
        + right. intros i Hi. destruct (Nat.eq_dec i m); [now subst|apply IH; lia].
        + left. exists m. split; [lia|assumption]. }
    destruct (G (length s)); [assumption|contradiction]. }
  destruct X as (i & Hi & Q).
  assert (Fi : is_spin (nth i s 0%Z)). { rewrite Forall_forall in F. apply F. now apply nth_In. }
  apply (Rprod_bound _ _ i).
  - intros j _. unfold cond_prob. split; [left; apply exp_pos|].
    refine (proj1 (cond_bound (padded net) s j _ (Lp j) _)). unfold cat. destruct (_ =? 1)%Z; lia.
  - apply in_seq. lia.
  - unfold cond_prob. change (cat (nth i s 0%Z)) with (category (nth i s 0%Z)).
    eapply Rle_trans; [apply (cond_bound (padded net) s i _ (Lp i) (category_lt _))|].
    unfold padded. destruct (Nat.ltb_spec i (length s)); [|lia].
    set (c := category (nth i s 0%Z)) in *. pose proof (category_lt (nth i s 0%Z) : c < 2) as Hc.
    assert (E : forall d, d < 2 -> nth d (masked_net net s i) C0 = (nth d (net s i) C0 + RtoC (LOG_ZERO * (if length s <=? 2 * before s i d then 1 else 0)))%C).
    { intros d Hd. rewrite masked_row by assumption.
      rewrite (nth_map2 _ _ _ _ C0 false) by (rewrite ?half_row_length, ?L; auto). now rewrite entry_half. }
    rewrite !E by lia.
    assert (O : (length s <=? 2 * before s i (1 - c)) = false).
    { apply Nat.leb_gt. assert (U := ups_downs (firstn i s)). rewrite firstn_length_le in U by lia.
      assert (F' : Forall is_spin (firstn i s)). { rewrite <- (firstn_skipn i s), Forall_app in F. tauto. }
      specialize (U F'). destruct c as [|[|c']]; [| |lia]; unfold before in *; cbn [Nat.sub Nat.eqb] in *; lia. }
    rewrite O. assert (O' : (length s <=? 2 * before s i c) = true) by (apply Nat.leb_le; lia). rewrite O'.
    assert (B : (Re (nth c (net s i) C0) - Re (nth (1 - c) (net s i) C0) <= D)%R).
    { specialize (HD i Hi). clear -HD Hc.
      pose proof (Rle_abs (Re (nth 0 (net s i) C0) - Re (nth 1 (net s i) C0))).
      pose proof (Rle_abs (- (Re (nth 0 (net s i) C0) - Re (nth 1 (net s i) C0)))). rewrite Rabs_Ropp in H0.
      destruct c as [|[|c']]; [| |lia]; cbn [Nat.sub]; lra. }
    assert (M : forall a b, (a <= b -> exp a <= exp b)%R). { intros a b [Q'|Q']; [left; now apply exp_increasing|right; now f_equal]. }
    apply M. revert B. unfold Re, Cplus, RtoC. cbn [fst]. intros. lra.
Qed.

Lemma outside_total net n D : autoregressive (2 * n) (seq 0 (2 * n)) net -> (forall s i, length (net s i) = 2) ->
  (forall s i, spins (2 * n) s -> i < 2 * n -> (Rabs (Re (nth 0 (net s i) C0) - Re (nth 1 (net s i) C0)) <= D)%R) ->
  (1 - INR (length (spin_configs (2 * n))) * exp (2 * (D + LOG_ZERO)) <=
   Rsum (fun s => born (predictions (masked_net net) s)) (filter (fun s => ups s =? downs s) (spin_configs (2 * n))) <= 1)%R.
Proof.
  intros A L HD. assert (T := masked_normalised (2 * n) net A L).
  assert (S : forall (f : list Z -> R) p l, Rsum f l = (Rsum f (filter p l) + Rsum f (filter (fun s => negb (p s)) l))%R).
  { clear. intros f p l. induction l as [|a l IH]; cbn [filter]; [rewrite Rsum_nil; ring|].
    destruct (p a); cbn [negb]; rewrite !Rsum_cons, IH; ring. }
  rewrite (S _ (fun s => ups s =? downs s)) in T.
  set (f := fun s => born (predictions (masked_net net) s)) in *.
  assert (Pos : forall l, (0 <= Rsum f l)%R).
  { intros l. apply Rsum_nonneg. intros s _. unfold f, born. rewrite Cnorm2_exp. left. apply exp_pos. }
  assert (B : (Rsum f (filter (fun s => negb (ups s =? downs s)) (spin_configs (2 * n))) <= INR (length (spin_configs (2 * n))) * exp (2 * (D + LOG_ZERO)))%R).
  { apply Rle_trans with (Rsum (fun _ => exp (2 * (D + LOG_ZERO))) (filter (fun s => negb (ups s =? downs s)) (spin_configs (2 * n)))).
    - apply Rsum_le. intros s Hs. apply filter_In in Hs. destruct Hs as [I N].
      apply spin_configs_spins in I. destruct I as [Ls Fs]. unfold f.
      assert (W : spins (length s) s) by (split; auto).
      apply outside_bound; auto.
      + intros i Hi. apply HD; [split; auto|lia].
      + pose proof (ups_downs s Fs). apply negb_true_iff, Nat.eqb_neq in N. lia.
    - rewrite Rsum_const. apply Rmult_le_compat_r; [left; apply exp_pos|]. apply le_INR.
      clear. generalize (spin_configs (2 * n)). intros l. induction l as [|a l IH]; cbn [filter length]; [lia|].
      destruct (negb _); cbn [length]; lia. }
  specialize (Pos (filter (fun s => negb (ups s =? downs s)) (spin_configs (2 * n)))). lra.
Qed.

(** * binary32 *)

Lemma mask_open : f32_mask false = S754_nan. Proof. vm_compute. reflexivity. Qed.
Lemma mask_closed : f32_mask true = S754_infinity true. Proof. vm_compute. reflexivity. Qed.

Lemma add_nan_r z : f32_add z S754_nan = S754_nan. Proof. destruct z; reflexivity. Qed.
Lemma add_nan_l z : f32_add S754_nan z = S754_nan. Proof. reflexivity. Qed.

Definition finite (z : float32) : Prop := match z with S754_zero _ | S754_finite _ _ _ => True | _ => False end.

Lemma f32_entries x s i c : Forall is_spin s -> i < length s -> length x = length s -> length (nth i x []) = 2 -> c < 2 ->
  nth c (nth i (f32_equal_up_down_spins x s) []) (f32_of_Z 0) = f32_add (nth c (nth i x []) (f32_of_Z 0)) (f32_mask (length s <=? 2 * before s i c)).
Proof.
  intros F H Lx Lr Hc. unfold f32_equal_up_down_spins.
  rewrite (nth_map2 _ _ _ _ [] []) by (rewrite ?half_length; lia).
  rewrite (nth_map2 _ _ _ _ (f32_of_Z 0) false) by (rewrite ?half_nth by assumption; cbn [length]; lia).
  now rewrite entry_half.
Qed.

Lemma f32_layer x s i c : spins (length s) s -> i < length s -> length x = length s -> length (nth i x []) = 2 -> c < 2 ->
  finite (nth c (nth i x []) (f32_of_Z 0)) ->
  nth c (nth i (f32_equal_up_down_spins x s) []) (f32_of_Z 0) =
  if length s <=? 2 * (if c =? 0 then ups (firstn i s) else downs (firstn i s)) then S754_infinity true else S754_nan.
Proof.
  intros [_ F] H Lx Lr Hc Fin. rewrite f32_entries by assumption. unfold before.
  destruct (length s <=? _).
  - rewrite mask_closed. destruct (nth c (nth i x []) (f32_of_Z 0)); try contradiction; reflexivity.
  - rewrite mask_open. apply add_nan_r.
Qed.

Lemma fold_nan l : In S754_nan l -> fold_right f32_add (f32_of_Z 0) l = S754_nan.
Proof.
  induction l as [|a l IH]; intros []; cbn [fold_right].
  - subst. reflexivity.
  - rewrite IH by assumption. apply add_nan_r.
Qed.

Lemma f32_nan norm re im s : spins (length s) s -> 0 < length s -> length re = length s -> length im = length s ->
  Forall (fun r => length r = 2) re -> Forall (fun r => length r = 2) im ->
  f32_predictions norm re im s = S754_nan.
Proof.
  intros [_ F] Hs Lr Li Fr Fi. unfold f32_predictions, f32_combine. apply fold_nan. apply in_concat.
  assert (R2 : length (nth 0 re []) = 2). { rewrite Forall_forall in Fr. apply Fr. apply nth_In. lia. }
  assert (I2 : length (nth 0 im []) = 2). { rewrite Forall_forall in Fi. apply Fi. apply nth_In. lia. }
  set (cond := map (f32_normalize norm) (f32_equal_up_down_spins re s)).
  assert (Leq : length (f32_equal_up_down_spins re s) = length s).
  { unfold f32_equal_up_down_spins. rewrite Base.map2_length, half_length. lia. }
  assert (Le0 : length (nth 0 (f32_equal_up_down_spins re s) []) = 2).
  { unfold f32_equal_up_down_spins. rewrite (nth_map2 _ _ _ _ [] []) by (rewrite ?half_length; lia).
    rewrite Base.map2_length, half_row_length by lia. lia. }
  assert (Lc : length cond = length s) by (unfold cond; now rewrite map_length).
  assert (C0n : nth 0 cond [] = f32_normalize norm (nth 0 (f32_equal_up_down_spins re s) [])).
  { unfold cond. change (@nil float32) with (f32_normalize norm []) at 1. apply map_nth. }
  assert (E0 : nth 0 (nth 0 cond []) (f32_of_Z 0) = S754_nan).
  { rewrite C0n. unfold f32_normalize.
    rewrite (nth_indep _ (f32_of_Z 0) (f32_sub (f32_of_Z 0) (norm (nth 0 (f32_equal_up_down_spins re s) [])))) by (rewrite map_length; lia).
    rewrite (map_nth (fun v => f32_sub v (norm (nth 0 (f32_equal_up_down_spins re s) [])))).
    rewrite f32_entries by (auto; lia). unfold before. cbn [Nat.eqb firstn]. unfold ups. cbn [count_occ].
    destruct (Nat.leb_spec (length s) (2 * 0)); [lia|]. rewrite mask_open, add_nan_r. reflexivity. }
  set (prod := map2 (fun c r => f32_sub (f32_mul (fst c) (f32_of_Z r)) (f32_mul (snd c) (f32_of_Z 0)))
    : list (float32 * float32) -> list Z -> list float32).
  exists (nth 0 (map2 prod (map2 (map2 pair) cond im) (map one_hot_input s)) []). split.
  - apply nth_In. rewrite !Base.map2_length, map_length. lia.
  - rewrite (nth_map2 _ _ _ _ [] []) by (rewrite ?Base.map2_length, ?map_length; lia).
    rewrite (nth_map2 _ _ _ _ [] []) by lia.
    rewrite (nth_indep _ [] (one_hot_input 0)) by (rewrite map_length; lia). rewrite (map_nth one_hot_input).
    assert (P : nth 0 (prod (map2 pair (nth 0 cond []) (nth 0 im [])) (one_hot_input (nth 0 s 0%Z))) (f32_of_Z 0) = S754_nan).
    { assert (L0 : length (nth 0 cond []) = 2) by (rewrite C0n; unfold f32_normalize; now rewrite map_length).
      unfold prod. rewrite (nth_map2 _ _ _ _ (f32_of_Z 0, f32_of_Z 0) 0%Z) by (rewrite ?Base.map2_length; unfold one_hot_input, range; cbn; lia).
      rewrite (nth_map2 _ _ _ _ (f32_of_Z 0) (f32_of_Z 0)) by lia. cbn [fst]. rewrite E0. reflexivity. }
    rewrite <- P. apply nth_In. unfold prod. rewrite !Base.map2_length. rewrite C0n. unfold f32_normalize. rewrite map_length.
    unfold one_hot_input, range. cbn [map length seq]. lia.
Qed.
