(** Lemmas about normalisation, combination and sampling of conditionals. *)
From Coq Require Import List ZArith Reals Lra Lia Bool Permutation.
From Verif Require Import Base Cplx OrderingModel OrderingSpec OrderingProofs AutoregressiveModel AutoregressiveSpec.
Import ListNotations.
Local Open Scope R_scope.

(** * log-sum-exp helpers *)
Lemma fold_left_Rmax_spec l : forall a, In (fold_left Rmax l a) (a :: l) /\
  (forall x, In x (a :: l) -> x <= fold_left Rmax l a).
Proof.
  induction l as [|b l IH]; intros a; simpl fold_left.
  - split; [now left|]. intros x [->|[]]; lra.
  - destruct (IH (Rmax a b)) as [H1 H2]. split.
    + destruct H1 as [H1|H1]; [|right; now right].
      rewrite <- H1. unfold Rmax. destruct (Rle_dec a b); [right; now left | now left].
    + intros x [->|[->|Hx]].
      * eapply Rle_trans; [apply (Rmax_l x b)|]. apply H2. now left.
      * eapply Rle_trans; [apply (Rmax_r a x)|]. apply H2. now left.
      * apply H2. now right.
Qed.

Lemma np_max_spec x : x <> [] -> exists m, np_max x = Ok m /\ In m x /\ (forall y, In y x -> y <= m).
Proof.
  destruct x as [|a t]; [congruence|]. intros _. exists (fold_left Rmax t a).
  destruct (fold_left_Rmax_spec t a). repeat split; auto.
Qed.

Lemma shifted_sum_bounds l m : In m l -> (forall y, In y l -> y <= m) ->
  1 <= Rsum (fun x => exp (x - m)) l <= INR (length l).
Proof.
  intros Hin Hmax. split.
  - replace 1 with (exp (m - m)) by (rewrite Rminus_diag_eq by reflexivity; apply exp_0).
    apply (Rsum_in_le (fun x => exp (x - m))); auto. intros; left; apply exp_pos.
  - replace (INR (length l)) with (Rsum (fun _ : R => 1) l) by (rewrite Rsum_const; ring).
    apply Rsum_le. intros a Ha. rewrite <- exp_0.
    destruct (Rle_lt_or_eq_dec a m (Hmax a Ha)).
    + left. apply exp_increasing. lra.
    + subst. right. f_equal. ring.
Qed.

Lemma shift_back l m : Rsum (fun x => exp (x - m)) l = exp (- m) * Rsum exp l.
Proof.
  rewrite <- Rsum_scal. apply Rsum_ext. intros a _. unfold Rminus. rewrite exp_plus. ring.
Qed.

Lemma ln_shift l m : l <> [] -> ln (Rsum (fun x => exp (x - m)) l) + m = ln (Rsum exp l).
Proof.
  intros Hl. rewrite shift_back, ln_mult, ln_exp.
  - ring.
  - apply exp_pos.
  - apply Rsum_pos; auto. intros; apply exp_pos.
Qed.

Lemma complex_norm_ok v : v <> [] ->
  complex_norm_log_fsum_exp v = Ok (ln (Rsum (fun z => Cmod (Cexp z)) v)).
Proof.
  intros Hv. unfold complex_norm_log_fsum_exp.
  assert (Hv' : map Re v <> []) by (destruct v; simpl; congruence).
  destruct (np_max_spec _ Hv') as (m & -> & Hin & Hmax). simpl bind. f_equal.
  rewrite !Rsum_map. rewrite <- (Rsum_map Re (fun x => exp (x - m))), ln_shift by auto.
  f_equal. rewrite Rsum_map. apply Rsum_ext. intros a _. now rewrite Cmod_exp.
Qed.

Lemma complex_norm_shift v : v <> [] ->
  exists m, In m (map Re v) /\ (forall y, In y (map Re v) -> y <= m) /\
    complex_norm_log_fsum_exp v = Ok (ln (Rsum (fun z => exp (Re z - m)) v) + m) /\
    1 <= Rsum (fun z => exp (Re z - m)) v <= INR (length v).
Proof.
  intros Hv. assert (Hv' : map Re v <> []) by (destruct v; simpl; congruence).
  destruct (np_max_spec _ Hv') as (m & E & Hin & Hmax). exists m. split; [auto|]. split; [auto|]. split.
  - unfold complex_norm_log_fsum_exp. rewrite E. simpl bind. do 3 f_equal. now rewrite !Rsum_map.
  - pose proof (shifted_sum_bounds _ _ Hin Hmax) as H. rewrite Rsum_map, map_length in H. exact H.
Qed.

Lemma log_fsum_exp_ok v : v <> [] -> log_fsum_exp v = Ok (ln (Rsum exp v)).
Proof.
  intros Hv. unfold log_fsum_exp.
  destruct (np_max_spec _ Hv) as (m & -> & Hin & Hmax). simpl bind. f_equal.
  rewrite !Rsum_map. now apply ln_shift.
Qed.

Lemma normalised_by_norm v : v <> [] ->
  exists l, complex_norm_log_fsum_exp (map (fun z => Cscale 2 z) v) = Ok l /\
    exp l = Rsum (fun z => born z) v /\
    Rsum (fun z => exp (2 * Re z - l)) v = 1.
Proof.
  intros Hv. eexists. split.
  { apply complex_norm_ok. destruct v; simpl; congruence. }
  rewrite Rsum_map.
  assert (E : Rsum (fun a => Cmod (Cexp (Cscale 2 a))) v = Rsum (fun z => exp (2 * Re z)) v).
  { apply Rsum_ext. intros a _. rewrite Cmod_exp. reflexivity. }
  rewrite E.
  assert (P : 0 < Rsum (fun z => exp (2 * Re z)) v) by (apply Rsum_pos; auto; intros; apply exp_pos).
  split.
  - rewrite exp_ln by auto. apply Rsum_ext. intros a _. unfold born. now rewrite Cnorm2_exp.
  - rewrite (Rsum_ext _ (fun z => exp (2 * Re z) * exp (- ln (Rsum (fun z => exp (2 * Re z)) v)))).
    + rewrite Rsum_scal_r, exp_Ropp, exp_ln by auto. field. lra.
    + intros a _. unfold Rminus. now rewrite exp_plus.
Qed.

(** * normalisation of one row *)
Lemma normalize_real_length p x : length (normalize_real p x) = length x.
Proof. apply map_length. Qed.

Lemma normalize_real_sum p x : p <> 0 -> x <> [] -> Rsum (fun y => exp (p * y)) (normalize_real p x) = 1.
Proof.
  intros Hp Hx. unfold normalize_real, reduce_logsumexp. rewrite !Rsum_map.
  set (S := Rsum (fun a => exp (a * p)) x).
  assert (P : 0 < S) by (apply Rsum_pos; auto; intros; apply exp_pos).
  rewrite (Rsum_ext _ (fun a => exp (a * p) * exp (- ln S))).
  - rewrite Rsum_scal_r, exp_Ropp, exp_ln by auto. fold S. field. lra.
  - intros a _. rewrite <- exp_plus. f_equal. field. auto.
Qed.

Lemma map2_pair_map {A} (f : A -> R) (g : A -> R) l :
  map2 (fun re im : R => (re, im)) (map f l) (map g l) = map (fun a => (f a, g a)) l.
Proof. induction l; simpl; auto. now rewrite IHl. Qed.

Lemma normalize_complex_map p x : exists c, normalize_complex p x = map (fun z => (Re z - c, Im z)) x /\
  normalize_real p (map Re x) = map (fun z => Re z - c) x.
Proof.
  eexists. split.
  - unfold normalize_complex. rewrite map_map, map2_pair_map. reflexivity.
  - unfold normalize_real. rewrite map_map. reflexivity.
Qed.

Lemma normalize_complex_length p x : length (normalize_complex p x) = length x.
Proof. destruct (normalize_complex_map p x) as (c & -> & _). apply map_length. Qed.

Lemma normalize_complex_Re p x : map Re (normalize_complex p x) = normalize_real p (map Re x).
Proof.
  destruct (normalize_complex_map p x) as (c & -> & ->). rewrite map_map. reflexivity.
Qed.

Lemma normalize_complex_sum p x : p <> 0 -> x <> [] ->
  Rsum (fun z => exp (p * Re z)) (normalize_complex p x) = 1.
Proof.
  intros Hp Hx. rewrite <- (Rsum_map Re (fun y => exp (p * y))), normalize_complex_Re.
  apply normalize_real_sum; auto. destruct x; simpl; congruence.
Qed.

Lemma normalize_complex_born x : x <> [] -> Rsum born (normalize_complex 2 x) = 1.
Proof.
  intros Hx. rewrite (Rsum_ext _ (fun z => exp (2 * Re z))).
  - apply normalize_complex_sum; auto; lra.
  - intros a _. apply Cnorm2_exp.
Qed.

Lemma normalize_real_shift p x : exists c, normalize_real p x = map (fun v => v - c) x.
Proof. eexists. unfold normalize_real. reflexivity. Qed.

Lemma normalize_complex_shift p x : exists c : R, normalize_complex p x = map (fun z => (z - RtoC c)%C) x.
Proof.
  destruct (normalize_complex_map p x) as (c & -> & _). exists c. apply map_ext. intros z.
  apply C_eq; unfold Re, Im, Cminus, RtoC; simpl; ring.
Qed.

(** * one hot *)
Lemma one_hot_dot_C (row : list C) idx : (0 <= idx < Z.of_nat (length row))%Z ->
  Csum (fun z => z) (map2 (fun c r => (c * RtoC r)%C) row (tf_one_hot idx (length row)))
  = nth (Z.to_nat idx) row C0.
Proof.
  unfold tf_one_hot, range. intros H.
  assert (G : forall row s idx, (Z.of_nat s <= idx < Z.of_nat (s + length row))%Z ->
    Csum (fun z => z) (map2 (fun c r => (c * RtoC r)%C) row
       (map (fun c => if (idx =? Z.of_nat c)%Z then 1 else 0) (seq s (length row)))) =
    nth (Z.to_nat idx - s) row C0).
  { clear. induction row as [|c row IH]; intros s idx H.
    - simpl length in H. lia.
    - cbn [length seq map map2]. rewrite Csum_cons. cbn [length] in H.
      destruct (Z.eqb_spec idx (Z.of_nat s)).
      + replace (Z.to_nat idx - s)%nat with 0%nat by lia. cbn [nth].
        assert (Z0 : forall row s', (s < s')%nat ->
          Csum (fun z => z) (map2 (fun c r => (c * RtoC r)%C) row
           (map (fun c => if (idx =? Z.of_nat c)%Z then 1 else 0) (seq s' (length row)))) = C0).
        { clear -e. induction row as [|d row IH]; intros s' Hs; [reflexivity|].
          cbn [length seq map map2]. rewrite Csum_cons.
          destruct (Z.eqb_spec idx (Z.of_nat s')); [lia|]. rewrite IH by lia. csolve. }
        rewrite Z0 by lia. csolve.
      + rewrite IH by lia. replace (Z.to_nat idx - s)%nat with (S (Z.to_nat idx - S s)) by lia.
        cbn [nth]. csolve. }
  specialize (G row 0%nat idx). rewrite Nat.sub_0_r in G. apply G. lia.
Qed.

Lemma one_hot_dot_R (row : list R) idx : (0 <= idx < Z.of_nat (length row))%Z ->
  Rsum (fun z => z) (map2 Rmult row (tf_one_hot idx (length row))) = nth (Z.to_nat idx) row 0.
Proof.
  intros H. pose proof (one_hot_dot_C (map RtoC row) idx) as G.
  rewrite map_length in G. specialize (G H). apply (f_equal Re) in G.
  change C0 with (RtoC 0) in G. rewrite map_nth in G. rewrite Re_RtoC in G. rewrite <- G.
  rewrite Re_Csum. rewrite map2_map_l.
  generalize (tf_one_hot idx (length row)). clear. induction row as [|a row IH]; intros [|b l]; simpl map2; auto.
  rewrite !Rsum_cons, IH. f_equal. unfold Re, Cmult, RtoC; simpl. ring.
Qed.

Lemma Csum_concat l : Csum (fun z => z) (concat l) = Csum (fun r => Csum (fun z => z) r) l.
Proof. induction l; simpl concat; auto. now rewrite Csum_app, Csum_cons, IHl. Qed.
Lemma Rsum_concat l : Rsum (fun z => z) (concat l) = Rsum (fun r => Rsum (fun z => z) r) l.
Proof. induction l; simpl concat; auto. now rewrite Rsum_app, Rsum_cons, IHl. Qed.

(** The category of a spin. *)
Definition cat (x : Z) : nat := if (x =? 1)%Z then 0%nat else 1%nat.

Lemma map2_range_map {A B D} (f : A -> B -> D) (g : nat -> A) (h : Z -> B) (s : list Z) :
  map2 f (map g (range (length s))) (map h s) = map (fun i => f (g i) (h (nth i s 0%Z))) (range (length s)).
Proof.
  rewrite <- (map_nth_range s 0%Z) at 2. rewrite map_map, map2_map_l.
  generalize (range (length s)). intros l. induction l; simpl; auto. now rewrite IHl.
Qed.

Lemma predictions_sum net s :
  (forall i, length (net s i) = 2%nat) -> Forall (fun x => x = 1%Z \/ x = (-1)%Z) s ->
  predictions net s =
  Csum (fun i => nth (cat (nth i s 0%Z)) (conditional_log_wave_function net s i) C0) (range (length s)).
Proof.
  intros HL HS. unfold predictions, combine_complex. rewrite Csum_concat, map2_range_map, Csum_map.
  apply Csum_ext. intros i Hi. apply in_range in Hi.
  assert (Hv : nth i s 0%Z = 1%Z \/ nth i s 0%Z = (-1)%Z).
  { rewrite Forall_forall in HS. apply HS. now apply nth_In. }
  assert (L : length (conditional_log_wave_function net s i) = 2%nat).
  { unfold conditional_log_wave_function. now rewrite normalize_complex_length. }
  unfold plus_minus_one_to_one_hot. rewrite <- L at 1.
  rewrite one_hot_dot_C.
  - destruct Hv as [-> | ->]; reflexivity.
  - rewrite L. destruct Hv as [-> | ->]; (split; [apply Z.leb_le | apply Z.ltb_lt]; reflexivity).
Qed.

Lemma log_prob_sum K net s :
  (forall i, length (net s i) = K) -> Forall (fun x => 0 <= x < Z.of_nat K)%Z s ->
  log_prob K net s =
  Rsum (fun i => nth (Z.to_nat (nth i s 0%Z)) (normalize_real 1 (net s i)) 0) (range (length s)).
Proof.
  intros HL HS. unfold log_prob, combine_real. rewrite Rsum_concat, map2_range_map, Rsum_map.
  apply Rsum_ext. intros i Hi. apply in_range in Hi.
  assert (Hv : (0 <= nth i s 0 < Z.of_nat K)%Z).
  { rewrite Forall_forall in HS. apply HS. now apply nth_In. }
  assert (L : length (normalize_real 1 (net s i)) = K) by now rewrite normalize_real_length.
  unfold to_one_hot. rewrite <- L at 1. rewrite one_hot_dot_R; auto. now rewrite L.
Qed.

(** * Sums over configurations *)
Fixpoint sum_over (vals : list Z) (sites : list nat) (s : list Z) (F : list Z -> R) : R :=
  match sites with
  | [] => F s
  | i :: t => Rsum (fun v => sum_over vals t (upd s i v) F) vals
  end.

Lemma upd_comm {A} (s : list A) i j v w : i <> j -> upd (upd s i v) j w = upd (upd s j w) i v.
Proof.
  revert i j. induction s as [|a s IH]; intros [|i] [|j] H; simpl; auto; try lia.
  f_equal. apply IH. lia.
Qed.

Lemma sum_over_perm vals o1 o2 : Permutation o1 o2 -> NoDup o1 -> forall s F,
  sum_over vals o1 s F = sum_over vals o2 s F.
Proof.
  induction 1; intros N s F; auto.
  - cbn [sum_over]. inversion N; subst. apply Rsum_ext. intros; now apply IHPermutation.
  - cbn [sum_over]. rewrite Rsum_exchange. apply Rsum_ext. intros v _. apply Rsum_ext. intros w _.
    rewrite upd_comm; auto. inversion N as [|? ? N1 N2]. intros ->. apply N1. now left.
  - rewrite IHPermutation1 by auto. apply IHPermutation2. now apply (Permutation_NoDup H).
Qed.

Lemma sum_over_seq vals m : forall pre rest F, length rest = m ->
  sum_over vals (seq (length pre) m) (pre ++ rest) F = Rsum (fun t => F (pre ++ t)) (strings vals m).
Proof.
  induction m; intros pre rest F HL.
  - destruct rest; [|discriminate]. simpl. ring.
  - destruct rest as [|r rest]; [discriminate|]. cbn [seq sum_over strings]. rewrite Rsum_flat_map.
    apply Rsum_ext. intros v _. rewrite Rsum_map.
    assert (E : upd (pre ++ r :: rest) (length pre) v = (pre ++ [v]) ++ rest).
    { clear. induction pre; simpl; auto. now rewrite IHpre. }
    rewrite E. replace (S (length pre)) with (length (pre ++ [v])) by (rewrite app_length; simpl; lia).
    rewrite IHm by (simpl in HL; lia). apply Rsum_ext. intros t _. now rewrite <- app_assoc.
Qed.

Lemma visits_once_perm n o : visits_once n o -> Permutation o (range n).
Proof.
  intros [N H]. apply NoDup_Permutation; auto using range_NoDup. intros x. now rewrite H, in_range.
Qed.

Lemma sum_over_all vals n o s F : visits_once n o -> length s = n ->
  sum_over vals o s F = Rsum F (strings vals n).
Proof.
  intros H L. rewrite (sum_over_perm vals o (range n)); auto using visits_once_perm.
  2: apply H. pose proof (sum_over_seq vals n [] s F L) as G. exact G.
Qed.

Lemma sum_over_ext vals sites : forall s F G,
  (forall t, length t = length s -> (forall i, ~ In i sites -> nth i t 0%Z = nth i s 0%Z) -> F t = G t) ->
  sum_over vals sites s F = sum_over vals sites s G.
Proof.
  induction sites as [|i sites IH]; intros s F G H; cbn [sum_over].
  - apply H; auto.
  - apply Rsum_ext. intros v _. apply IH. intros t L Ht. apply H.
    + now rewrite upd_length in L.
    + intros j Hj. rewrite Ht by (intro; apply Hj; now right).
      apply nth_upd_other. intros ->. apply Hj. now left.
Qed.

Lemma sum_over_scal vals sites : forall s c F,
  sum_over vals sites s (fun t => c * F t) = c * sum_over vals sites s F.
Proof.
  induction sites as [|i sites IH]; intros s c F; cbn [sum_over]; auto.
  rewrite <- Rsum_scal. apply Rsum_ext. intros v _. apply IH.
Qed.

(** Telescoping: conditionals that sum to one and look at earlier sites only. *)
Lemma telescoping vals n order (p : list Z -> nat -> Z -> R) :
  visits_once n order ->
  autoregressive n order p ->
  (forall s i, Rsum (p s i) vals = 1) ->
  forall before after s, order = before ++ after -> length s = n ->
  sum_over vals after s (fun t => Rprod (fun i => p t i (nth i t 0%Z)) after) = 1.
Proof.
  intros HV HA HN before after. revert before.
  induction after as [|i after IH]; intros before s HO HL; cbn [sum_over]; [reflexivity|].
  assert (ND : NoDup (before ++ i :: after)) by (rewrite <- HO; apply HV).
  assert (Hi : (i < n)%nat) by (apply HV; rewrite HO; apply in_elt).
  rewrite (Rsum_ext _ (fun v => p s i v)); [apply HN|].
  intros v _.
  rewrite (sum_over_ext _ _ _ _ (fun t => p s i v * Rprod (fun j => p t j (nth j t 0%Z)) after)).
  - rewrite sum_over_scal, (IH (before ++ [i])).
    + ring.
    + rewrite <- app_assoc. exact HO.
    + now rewrite upd_length.
  - intros t L Ht. rewrite upd_length in L. rewrite Rprod_cons. f_equal.
    rewrite (Ht i).
    + rewrite nth_upd_same by lia.
      erewrite (HA before i after HO t s); auto; try lia.
      intros j Hj. rewrite Ht.
      * apply nth_upd_other. intros ->.
        apply NoDup_remove_2 in ND. apply ND. apply in_or_app; now left.
      * intros Hin. apply NoDup_remove_1 in ND.
        apply in_split in Hj. destruct Hj as (l1 & l2 & ->).
        rewrite <- app_assoc in ND. simpl in ND. apply NoDup_remove_2 in ND.
        apply ND. apply in_or_app; right. apply in_or_app; now right.
    + apply NoDup_remove_2 in ND. intro. apply ND. apply in_or_app; now right.
Qed.

Lemma in_strings vals n : forall s, In s (strings vals n) <-> length s = n /\ Forall (fun x => In x vals) s.
Proof.
  induction n; intros s; cbn [strings].
  - split.
    + intros [<-|[]]. auto.
    + intros [L _]. destruct s; [now left|discriminate].
  - rewrite in_flat_map. split.
    + intros (a & Ha & Hs). apply in_map_iff in Hs. destruct Hs as (t & <- & Ht).
      apply IHn in Ht. destruct Ht. split; [simpl; lia|]. constructor; auto.
    + intros [L F]. destruct s as [|a s]; [discriminate|]. inversion F; subst.
      exists a. split; auto. apply in_map. apply IHn. split; auto.
Qed.

Lemma spin_configs_spins n s : In s (spin_configs n) ->
  length s = n /\ Forall (fun x => x = 1%Z \/ x = (-1)%Z) s.
Proof.
  intros H. apply in_strings in H. destruct H as [L F]. split; auto.
  eapply Forall_impl; [|exact F]. intros x [<-|[<-|[]]]; auto.
Qed.

(** |psi|^2 as a product of conditional probabilities. *)
Definition cond_prob (net : list Z -> nat -> list C) (s : list Z) (i : nat) (v : Z) : R :=
  exp (2 * Re (nth (cat v) (conditional_log_wave_function net s i) C0)).

Lemma born_predictions net s :
  (forall i, length (net s i) = 2%nat) -> Forall (fun x => x = 1%Z \/ x = (-1)%Z) s ->
  born (predictions net s) = Rprod (fun i => cond_prob net s i (nth i s 0%Z)) (range (length s)).
Proof.
  intros HL HS. unfold born. rewrite Cnorm2_exp, predictions_sum, Re_Csum by auto.
  rewrite <- Rsum_scal, exp_Rsum. reflexivity.
Qed.

Lemma cond_prob_sum net s i : length (net s i) = 2%nat -> cond_prob net s i 1 + cond_prob net s i (-1) = 1.
Proof.
  intros HL. unfold cond_prob.
  assert (L : length (conditional_log_wave_function net s i) = 2%nat).
  { unfold conditional_log_wave_function. now rewrite normalize_complex_length. }
  assert (S : Rsum born (conditional_log_wave_function net s i) = 1).
  { apply normalize_complex_born. destruct (net s i); [discriminate|congruence]. }
  destruct (conditional_log_wave_function net s i) as [|a [|b [|? ?]]]; try discriminate.
  rewrite !Rsum_cons, Rsum_nil in S. unfold born in S. rewrite !Cnorm2_exp in S.
  cbn [cat nth Z.eqb Pos.eqb]. lra.
Qed.

Lemma normalised_wave_function n order net :
  visits_once n order -> autoregressive n order net -> (forall s i, length (net s i) = 2%nat) ->
  Rsum (fun s => born (predictions net s)) (spin_configs n) = 1.
Proof.
  intros HV HA HL.
  rewrite (Rsum_ext _ (fun s => Rprod (fun i => cond_prob net s i (nth i s 0%Z)) order)).
  - unfold spin_configs. rewrite <- (sum_over_all _ n order (repeat 0%Z n)) by (auto using repeat_length).
    apply (telescoping _ n order (cond_prob net)) with (before := []); auto using repeat_length.
    + intros b i a E s t Ls Lt Hag. unfold cond_prob, conditional_log_wave_function.
      now rewrite (HA b i a E s t Ls Lt Hag).
    + intros s i. rewrite !Rsum_cons, Rsum_nil. rewrite <- (cond_prob_sum net s i (HL s i)). ring.
  - intros s Hs. apply spin_configs_spins in Hs. destruct Hs as [Ls Fs].
    rewrite born_predictions by auto. apply Rprod_perm. symmetry. rewrite Ls. now apply visits_once_perm.
Qed.

Lemma normalised_probability K n order net :
  (0 < K)%nat -> visits_once n order -> autoregressive n order net -> (forall s i, length (net s i) = K) ->
  Rsum (fun s => exp (log_prob K net s)) (strings (map Z.of_nat (seq 0 K)) n) = 1.
Proof.
  intros HK HV HA HL.
  set (p := fun (s : list Z) i v => exp (nth (Z.to_nat v) (normalize_real 1 (net s i)) 0)).
  rewrite (Rsum_ext _ (fun s => Rprod (fun i => p s i (nth i s 0%Z)) order)).
  - rewrite <- (sum_over_all _ n order (repeat 0%Z n)) by (auto using repeat_length).
    apply (telescoping _ n order p) with (before := []); auto using repeat_length.
    + intros b i a E s t Ls Lt Hag. unfold p. now rewrite (HA b i a E s t Ls Lt Hag).
    + intros s i. rewrite Rsum_map.
      rewrite <- (normalize_real_sum 1 (net s i)).
      2: lra. 2: specialize (HL s i); destruct (net s i); simpl in HL; [lia|congruence].
      transitivity (Rsum (fun y => exp (1 * y))
        (map (fun c => nth c (normalize_real 1 (net s i)) 0) (range (length (normalize_real 1 (net s i)))))).
      * rewrite normalize_real_length, HL, Rsum_map. apply Rsum_ext. intros c _. unfold p.
        rewrite Nat2Z.id. now rewrite Rmult_1_l.
      * rewrite map_nth_range. reflexivity.
  - intros s Hs. apply in_strings in Hs. destruct Hs as [Ls Fs].
    rewrite log_prob_sum; auto.
    + rewrite exp_Rsum. rewrite (Rprod_perm _ order (range n)) by now apply visits_once_perm.
      now rewrite Ls.
    + eapply Forall_impl; [|exact Fs]. intros x Hx. apply in_map_iff in Hx. destruct Hx as (k & <- & Hk).
      apply in_seq in Hk. lia.
Qed.

(** * The sampler *)
Lemma site_index_ok shape l : (length shape = 1 \/ length shape = 2)%nat -> in_shape shape l ->
  site_index shape l = Ok (row_major shape l).
Proof.
  intros HL HI. unfold in_shape in HI.
  destruct HL as [HL|HL].
  - destruct shape as [|n [|? ?]]; try discriminate. inversion HI as [|h ? l' ? H1 H2]; subst.
    inversion H2; subst. cbn [site_index row_major volume fold_right].
    rewrite (proj2 (Nat.ltb_lt h n) H1). f_equal. lia.
  - destruct shape as [|n [|m [|? ?]]]; try discriminate. inversion HI as [|h ? l' ? H1 H2]; subst.
    inversion H2 as [|w ? l'' ? H3 H4]; subst. inversion H4; subst.
    cbn [site_index row_major volume fold_right].
    rewrite (proj2 (Nat.ltb_lt h n) H1), (proj2 (Nat.ltb_lt w m) H3). cbv iota beta delta [andb]. f_equal. lia.
Qed.

(** The loop over flat sites. *)
Fixpoint flat_sample (zb : bool) (lp : list Z -> nat -> list R) (u : list R) (order : list nat) (b : list Z) :=
  match order with
  | [] => b
  | i :: t => flat_sample zb lp u t (upd b i (draw_value zb (nth 0 (lp b i) 0) (nth i u 0)))
  end.

Lemma sample_loop_flat shape zb lp u order : (length shape = 1 \/ length shape = 2)%nat ->
  (forall l, In l order -> in_shape shape l) -> forall b,
  sample_loop shape zb lp u order b = Ok (flat_sample zb lp u (map (row_major shape) order) b).
Proof.
  intros HL. induction order as [|l order IH]; intros H b; cbn [sample_loop map flat_sample]; auto.
  rewrite site_index_ok by (auto; apply H; now left). cbn [bind]. apply IH. intros; apply H; now right.
Qed.

Lemma flat_sample_length zb lp u order : forall b, length (flat_sample zb lp u order b) = length b.
Proof. induction order as [|i order IH]; intros b; cbn [flat_sample]; auto. now rewrite IH, upd_length. Qed.

Lemma flat_sample_other zb lp u order : forall b j, ~ In j order ->
  nth j (flat_sample zb lp u order b) 0%Z = nth j b 0%Z.
Proof.
  induction order as [|i order IH]; intros b j H; cbn [flat_sample]; auto.
  rewrite IH by (intro; apply H; now right). apply nth_upd_other. intros ->. apply H; now left.
Qed.

Lemma NoDup_app_disjoint {A} (l1 l2 : list A) x : NoDup (l1 ++ l2) -> In x l1 -> ~ In x l2.
Proof.
  induction l1; intros N H; [destruct H|]. inversion N; subst. destruct H as [->|H]; auto.
  intro. apply H2. apply in_or_app; now right.
Qed.

Lemma flat_sample_fixed zb lp u n order : visits_once n order -> autoregressive n order lp ->
  forall before after b, order = before ++ after -> length b = n ->
  forall i, In i after ->
  let r := flat_sample zb lp u after b in
  nth i r 0%Z = draw_value zb (nth 0 (lp r i) 0) (nth i u 0).
Proof.
  intros HV HA before after. revert before.
  induction after as [|j after IH]; intros before b HO HL i Hi; [destruct Hi|].
  assert (ND : NoDup (before ++ j :: after)) by (rewrite <- HO; apply HV).
  intros r. cbn [flat_sample] in r.
  destruct (Nat.eq_dec i j) as [->|Hij].
  - assert (Hj : ~ In j after).
    { apply NoDup_remove_2 in ND. intro. apply ND. apply in_or_app; now right. }
    unfold r at 1. rewrite flat_sample_other by auto.
    rewrite nth_upd_same.
    2: { rewrite HL. apply HV. rewrite HO. apply in_elt. }
    rewrite (HA before j after HO b r); auto.
    + unfold r. now rewrite flat_sample_length, upd_length.
    + intros k Hk. unfold r. rewrite flat_sample_other.
      * symmetry. apply nth_upd_other. intros ->.
        apply (NoDup_app_disjoint _ _ k ND Hk). now left.
      * intro. apply (NoDup_app_disjoint _ _ k ND Hk). now right.
  - destruct Hi as [->|Hi]; [congruence|].
    apply (IH (before ++ [j])); auto.
    + rewrite <- app_assoc. exact HO.
    + now rewrite upd_length.
Qed.

Lemma fixed_unique zb (lp : list Z -> nat -> list R) (u : list R) n order :
  visits_once n order -> autoregressive n order lp -> forall s t, length s = n -> length t = n ->
  (forall i, (i < n)%nat -> nth i s 0%Z = draw_value zb (nth 0 (lp s i) 0) (nth i u 0)) ->
  (forall i, (i < n)%nat -> nth i t 0%Z = draw_value zb (nth 0 (lp t i) 0) (nth i u 0)) -> s = t.
Proof.
  intros HV HA s t Ls Lt Hs Ht.
  assert (G : forall after before, order = before ++ after -> agree_on before s t -> agree_on order s t).
  { induction after as [|i after IH]; intros before HO Hag.
    - rewrite app_nil_r in HO. now subst.
    - apply (IH (before ++ [i])).
      + rewrite <- app_assoc. exact HO.
      + intros j Hj. apply in_app_or in Hj. destruct Hj as [Hj|[<-|[]]]; [now apply Hag|].
        assert (Hi : (i < n)%nat) by (apply HV; rewrite HO; apply in_elt).
        rewrite Hs, Ht by auto. now rewrite (HA before i after HO s t). }
  apply (list_ext_nth 0%Z); [lia|]. intros i Hi.
  apply (G order []); auto. { intros j []. } apply HV. lia.
Qed.

Lemma ordering_visits shape order : ordering_of shape order ->
  visits_once (volume shape) (map (row_major shape) order).
Proof.
  intros H. assert (P : Permutation (map (row_major shape) order) (range (volume shape))).
  { pose proof (flat_perm shape order H) as P. unfold to_flat_ordering in P.
    erewrite map_ext_in; [exact P|]. intros l Hl. apply H in Hl.
    pose proof (flat_index shape l Hl) as E. injection E. auto. }
  split.
  - apply (Permutation_NoDup (Permutation_sym P)). apply range_NoDup.
  - intros i. rewrite <- in_range. split; apply Permutation_in; auto using Permutation_sym.
Qed.

Lemma sampler_fixed_point shape order zb lp u : (length shape = 1 \/ length shape = 2)%nat ->
  ordering_of shape order -> autoregressive (volume shape) (map (row_major shape) order) lp ->
  exists s, sampler_next shape zb lp order u = Ok s /\ length s = volume shape /\
    (forall i, (i < volume shape)%nat -> nth i s 0%Z = draw_value zb (nth 0 (lp s i) 0) (nth i u 0)).
Proof.
  intros HL HO HA. pose proof (ordering_visits _ _ HO) as HV.
  unfold sampler_next. rewrite sample_loop_flat; auto.
  2: { intros l Hl. now apply HO. }
  eexists. split; [reflexivity|]. change (fold_right Nat.mul 1%nat shape) with (volume shape). split.
  - now rewrite flat_sample_length, repeat_length.
  - intros i Hi. apply (flat_sample_fixed zb lp u (volume shape) _ HV HA []); auto using repeat_length.
    now apply HV.
Qed.

Lemma sampler_iff shape order zb lp u s : (length shape = 1 \/ length shape = 2)%nat ->
  ordering_of shape order -> autoregressive (volume shape) (map (row_major shape) order) lp ->
  length s = volume shape ->
  sampler_next shape zb lp order u = Ok s <->
  (forall i, (i < volume shape)%nat -> nth i s 0%Z = draw_value zb (nth 0 (lp s i) 0) (nth i u 0)).
Proof.
  intros HL HO HA HS. destruct (sampler_fixed_point shape order zb lp u HL HO HA) as (r & E & Lr & Hr).
  rewrite E. split.
  - intros I. injection I as <-. exact Hr.
  - intros H. f_equal. apply (fixed_unique zb lp u (volume shape) (map (row_major shape) order)); auto.
    now apply ordering_visits.
Qed.

Definition unit_list (n : nat) (u : list R) : Prop := length u = n /\ Forall (fun x => 0 <= x < 1) u.

Lemma Forall_nth_lt {A} (P : A -> Prop) l i d : Forall P l -> (i < length l)%nat -> P (nth i l d).
Proof. intros F H. rewrite Forall_forall in F. apply F. now apply nth_In. Qed.

Lemma cond_log_probs_0 net s i : length (net s i) = 2%nat ->
  exp (nth 0 (conditional_log_probs net s i) 0) = cond_prob net s i 1.
Proof.
  intros HL. unfold conditional_log_probs, cond_prob.
  assert (L : length (conditional_log_wave_function net s i) = 2%nat).
  { unfold conditional_log_wave_function. now rewrite normalize_complex_length. }
  destruct (conditional_log_wave_function net s i) as [|a [|b [|? ?]]]; try discriminate.
  cbn [cat nth map Z.eqb Pos.eqb]. f_equal. ring.
Qed.

Lemma cond_prob_pos net s i v : 0 < cond_prob net s i v.
Proof. apply exp_pos. Qed.

Lemma sampler_boxes shape order net :
  (length shape = 1 \/ length shape = 2)%nat -> ordering_of shape order ->
  autoregressive (volume shape) (map (row_major shape) order) net ->
  (forall s i, length (net s i) = 2%nat) ->
  exists box : list Z -> nat -> R * R,
    (forall s i, 0 <= fst (box s i) /\ snd (box s i) <= 1) /\
    (forall u s, unit_list (volume shape) u -> In s (spin_configs (volume shape)) ->
       (sampler_next shape false (conditional_log_probs net) order u = Ok s <->
        forall i, (i < volume shape)%nat -> inside (nth i u 0) (box s i))) /\
    (forall s, In s (spin_configs (volume shape)) ->
       Rprod (fun i => len (box s i)) (range (volume shape)) = born (predictions net s)).
Proof.
  intros HL HO HA HN.
  set (p := fun s i => cond_prob net s i 1).
  exists (fun s i => if (nth i s 0 =? 1)%Z then (0, p s i) else (p s i, 1)).
  assert (P : forall s i, 0 < p s i < 1).
  { intros s i. unfold p. pose proof (cond_prob_sum net s i (HN s i)).
    pose proof (cond_prob_pos net s i 1). pose proof (cond_prob_pos net s i (-1)). lra. }
  assert (HA' : autoregressive (volume shape) (map (row_major shape) order) (conditional_log_probs net)).
  { intros b i a E s t Ls Lt Hag. unfold conditional_log_probs, conditional_log_wave_function.
    now rewrite (HA b i a E s t Ls Lt Hag). }
  split; [|split].
  - intros s i. specialize (P s i). destruct (nth i s 0 =? 1)%Z; simpl; lra.
  - intros u s [Lu Fu] Hs. apply spin_configs_spins in Hs. destruct Hs as [Ls Fs].
    rewrite sampler_iff by auto.
    assert (Q : forall i, (i < volume shape)%nat ->
      (nth i s 0%Z = draw_value false (nth 0 (conditional_log_probs net s i) 0) (nth i u 0) <->
       inside (nth i u 0) (if (nth i s 0 =? 1)%Z then (0, p s i) else (p s i, 1)))).
    { intros i Hi. unfold draw_value. rewrite cond_log_probs_0 by auto. fold (p s i).
      assert (Hu : 0 <= nth i u 0 < 1) by (apply (Forall_nth_lt (fun x => 0 <= x < 1)); auto; lia).
      assert (Hv : nth i s 0%Z = 1%Z \/ nth i s 0%Z = (-1)%Z).
      { apply (Forall_nth_lt (fun x => x = 1%Z \/ x = (-1)%Z)); auto; lia. }
      unfold inside. destruct (Rlt_dec (nth i u 0) (p s i)); destruct Hv as [-> | ->]; simpl; split; intros;
        try lra; try reflexivity; try discriminate. }
    split; intros H i Hi; apply Q; auto.
  - intros s Hs. apply spin_configs_spins in Hs. destruct Hs as [Ls Fs].
    rewrite born_predictions by auto. rewrite Ls. apply Rprod_ext. intros i Hi. apply in_range in Hi.
    unfold len, p. pose proof (cond_prob_sum net s i (HN s i)) as E.
    assert (Hv : nth i s 0%Z = 1%Z \/ nth i s 0%Z = (-1)%Z).
    { apply (Forall_nth_lt (fun x => x = 1%Z \/ x = (-1)%Z)); auto; lia. }
    destruct Hv as [-> | ->]; simpl fst; simpl snd; cbn [Z.eqb Pos.eqb fst snd]; lra.
Qed.

Lemma sampler_total shape order net u :
  (length shape = 1 \/ length shape = 2)%nat -> ordering_of shape order ->
  autoregressive (volume shape) (map (row_major shape) order) net ->
  exists s, sampler_next shape false (conditional_log_probs net) order u = Ok s /\
    In s (spin_configs (volume shape)).
Proof.
  intros HL HO HA.
  assert (HA' : autoregressive (volume shape) (map (row_major shape) order) (conditional_log_probs net)).
  { intros b i a E s t Ls Lt Hag. unfold conditional_log_probs, conditional_log_wave_function.
    now rewrite (HA b i a E s t Ls Lt Hag). }
  destruct (sampler_fixed_point shape order false _ u HL HO HA') as (s & E & Ls & Hs).
  exists s. split; auto. apply in_strings. split; auto. apply Forall_forall. intros x Hx.
  apply (In_nth _ _ 0%Z) in Hx. destruct Hx as (i & Hi & <-). rewrite Hs by lia.
  unfold draw_value. destruct (Rlt_dec _ _); simpl; auto.
Qed.

(** Zero based encoding. *)
Lemma sampler_zero_base shape order net :
  (length shape = 1 \/ length shape = 2)%nat -> ordering_of shape order ->
  autoregressive (volume shape) (map (row_major shape) order) net ->
  (forall s i, length (net s i) = 2%nat) ->
  forall u s, unit_list (volume shape) u -> In s (strings [0%Z; 1%Z] (volume shape)) ->
    (sampler_next shape true (fun s i => normalize_real 1 (net s i)) order u = Ok s <->
     forall i, (i < volume shape)%nat ->
       let p_category_0 := exp (nth 0 (normalize_real 1 (net s i)) 0) in
       nth i s 0%Z = 1%Z <-> nth i u 0 < p_category_0).
Proof.
  intros HL HO HA HN u s [Lu Fu] Hs. apply in_strings in Hs. destruct Hs as [Ls Fs].
  assert (HA' : autoregressive (volume shape) (map (row_major shape) order)
                  (fun s i => normalize_real 1 (net s i))).
  { intros b i a E s' t Ls' Lt Hag. now rewrite (HA b i a E s' t Ls' Lt Hag). }
  rewrite sampler_iff by auto.
  assert (Q : forall i, (i < volume shape)%nat ->
      (nth i s 0%Z = draw_value true (nth 0 (normalize_real 1 (net s i)) 0) (nth i u 0) <->
       (nth i s 0%Z = 1%Z <-> nth i u 0 < exp (nth 0 (normalize_real 1 (net s i)) 0)))).
  { intros i Hi. unfold draw_value.
    assert (Hv : In (nth i s 0%Z) [0%Z; 1%Z]).
    { apply (Forall_nth_lt (fun x => In x [0%Z; 1%Z])); auto; lia. }
    destruct (Rlt_dec _ _) as [L|L]; destruct Hv as [E|[E|[]]]; rewrite <- E; clear E;
      intuition (try discriminate; try contradiction; auto). }
  split; intros H i Hi; apply Q; auto.
Qed.

Definition refute_net (_ : list Z) (_ : nat) : list R := [ln (1 / 4); ln (3 / 4)].

Lemma refute_net_norm s i : normalize_real 1 (refute_net s i) = [ln (1 / 4); ln (3 / 4)].
Proof.
  unfold normalize_real, reduce_logsumexp, refute_net. cbn [map].
  rewrite !Rsum_cons, Rsum_nil. rewrite !Rmult_1_r, !exp_ln by lra.
  replace (1 / 4 + (3 / 4 + 0)) with 1 by lra. rewrite ln_1. f_equal; [ring|]. f_equal; ring.
Qed.

Lemma zero_base_wrong :
  exists net : list Z -> nat -> list R,
    (forall s i, length (net s i) = 2%nat) /\ autoregressive 1 [0%nat] net /\
    exp (log_prob 2 net [1%Z]) = 3 / 4 /\
    (forall u, 0 <= u < 1 ->
       (sampler_next [1%nat] true (fun s i => normalize_real 1 (net s i)) [[0%nat]] [u] = Ok [1%Z] <->
        u < 1 / 4)).
Proof.
  exists refute_net. split; [reflexivity|]. split; [intros b i a E s t _ _ _; reflexivity|]. split.
  - rewrite log_prob_sum; [|reflexivity|repeat constructor; lia].
    cbn [length range seq]. rewrite Rsum_cons, Rsum_nil. cbn [nth]. rewrite refute_net_norm.
    replace (Z.to_nat 1) with 1%nat by reflexivity. cbn [nth]. rewrite Rplus_0_r, exp_ln by lra. reflexivity.
  - intros u Hu. unfold sampler_next. cbn [sample_loop site_index Nat.ltb Nat.leb bind fold_right Nat.mul repeat Nat.add].
    rewrite refute_net_norm. cbn [nth upd]. unfold draw_value. rewrite exp_ln by lra.
    destruct (Rlt_dec u (1 / 4)); split; intros H; try discriminate; try lra; auto.
Qed.

Lemma sampler_three_dims a b c d e f zb lp u rest :
  sampler_next [a; b; c] zb lp ([d; e; f] :: rest) u = Err GenericException.
Proof. reflexivity. Qed.
