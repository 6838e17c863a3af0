(** Lemmas for local energies and loss coefficients. *)
From Coq Require Import List ZArith Reals Lra Lia Bool Arith Permutation.
From Verif Require Import Base Cplx AutoregressiveSpec AutoregressiveProofs LatticeSpec IsingModel IsingProofs
  HeisenbergModel HeisenbergProofs ObservableModel ObservableSpec.
Import ListNotations.
Local Open Scope nat_scope.

(** * Boolean indexing *)
Lemma select_app {A} m1 : forall (l1 : list A) m2 l2, length m1 = length l1 ->
  select (m1 ++ m2) (l1 ++ l2) = select m1 l1 ++ select m2 l2.
Proof.
  induction m1 as [|b m1 IH]; intros [|a l1] m2 l2 L; simpl in L; try lia; [reflexivity|].
  cbn [app select]. rewrite IH by lia. now destruct b.
Qed.

Lemma select_length {A} m : forall l : list A, length m = length l ->
  length (select m l) = length (filter (fun u => u) m).
Proof.
  induction m as [|b m IH]; intros [|a l] L; simpl in L; try lia; [reflexivity|].
  cbn [select filter]. destruct b; cbn [length]; rewrite IH by lia; auto.
Qed.

Lemma select_flat_map {A B} (f : A -> list bool) (g : A -> list B) l :
  (forall a, In a l -> length (f a) = length (g a)) ->
  select (flat_map f l) (flat_map g l) = flat_map (fun a => select (f a) (g a)) l.
Proof.
  induction l as [|a l IH]; intros H; [reflexivity|]. cbn [flat_map].
  rewrite select_app by (apply H; now left). rewrite IH; auto. intros x Hx. apply H. now right.
Qed.

Lemma map_flat_map {A B D} (h : B -> D) (g : A -> list B) l :
  map h (flat_map g l) = flat_map (fun a => map h (g a)) l.
Proof. induction l as [|a l IH]; [reflexivity|]. cbn [flat_map]. now rewrite map_app, IH. Qed.

Lemma slice_skip {A} (p l : list A) n : slice (p ++ l) (length p) (length p + n) = firstn n l.
Proof.
  unfold slice. rewrite skipn_app, skipn_all, Nat.sub_diag, app_nil_l. cbn [skipn]. f_equal. lia.
Qed.

Lemma at_sample_length {A} b (d : A) rows : length (at_sample b d rows) = length rows.
Proof. apply map_length. Qed.

Lemma nth_at_sample {A} b k (d : A) rows : k < length rows -> nth k (at_sample b d rows) d = entry d rows k b.
Proof.
  intros H. unfold at_sample, entry. rewrite (nth_indep _ d (nth b [] d)) by (now rewrite map_length).
  apply (map_nth (fun r => nth b r d)).
Qed.

(** * One sample *)
Section Sample.
  Variables (lp : list Z -> C) (v0 : C).
  Lemma select_sum us : forall ms cs, length us = length ms -> length us = length cs ->
    (forall k, nth k us false = false -> nth k ms C0 = C0) ->
    Csum (fun z => z) (map2 Cmult (select us ms) (map (fun v => Cexp (v - v0)%C) (map lp (select us cs)))) =
    Csum (fun k => (nth k ms C0 * Cexp (lp (nth k cs []) - v0))%C) (seq 0 (length us)).
  Proof.
    induction us as [|u us IH]; intros [|m ms] [|c cs] L1 L2 H; simpl in L1, L2; try lia; [reflexivity|].
    cbn [length seq]. rewrite Csum_cons, <- seq_shift, Csum_map.
    cbn [nth]. rewrite <- (IH ms cs) by (try lia; intros k Hk; apply (H (S k)); exact Hk).
    cbn [select]. destruct u; cbn [map map2].
    - now rewrite Csum_cons.
    - rewrite (H 0 eq_refl : m = C0). ring.
  Qed.
  Lemma all_sum ms : forall cs, length ms = length cs ->
    Csum (fun z => z) (map2 Cmult ms (map (fun c => Cexp (lp c - v0)%C) cs)) =
    Csum (fun k => (nth k ms C0 * Cexp (lp (nth k cs []) - v0))%C) (seq 0 (length ms)).
  Proof.
    induction ms as [|m ms IH]; intros [|c cs] L; simpl in L; try lia; [reflexivity|].
    cbn [length seq]. rewrite Csum_cons, <- seq_shift, Csum_map. cbn [map map2]. rewrite Csum_cons, IH by lia.
    reflexivity.
  Qed.
End Sample.

Lemma arrays_length {A} K B (rows : list (list A)) : arrays K B rows -> length rows = K.
Proof. now intros []. Qed.

Lemma sample_sum lp K B c samples b s : rectangular K B c -> nth_error samples b = Some s ->
  Csum (fun k => (nth k (at_sample b C0 (mels c)) C0 * Cexp (lp (nth k (at_sample b [] (conns c)) []) - lp s))%C) (seq 0 K) =
  local_energy_of lp K c b s.
Proof.
  intros (R1 & R2 & R3) Hs. unfold local_energy_of. apply Csum_ext. intros k Hk. apply in_seq in Hk.
  rewrite !nth_at_sample by (rewrite (arrays_length K B) by assumption; lia). now rewrite Cexp_minus.
Qed.

(** * The unbalanced path *)
Lemma unbalanced_loop_ok lp K B c (samples : list (list Z)) : rectangular K B c -> B = length samples -> 0 < K ->
  first_is_sample samples c -> unused_vanish K B c ->
  forall n a pre, a + n = B ->
  unbalanced_loop c (pre ++ flat_map (fun b => map lp (select (at_sample b false (uses c)) (at_sample b [] (conns c)))) (seq a n))
    (seq a n) (length pre) =
  Ok (map (fun b => local_energy_of lp K c b (nth b samples [])) (seq a n)).
Proof.
  intros R HB HK HF HU. induction n as [|n IH]; intros a pre Ha; [reflexivity|].
  cbn [seq flat_map map unbalanced_loop].
  set (us := at_sample a false (uses c)). set (cs := at_sample a [] (conns c)).
  pose proof R as (R1 & R2 & R3).
  assert (Lus : length us = K) by (unfold us; rewrite at_sample_length; apply (arrays_length K B); auto).
  assert (Lcs : length cs = K) by (unfold cs; rewrite at_sample_length; apply (arrays_length K B); auto).
  assert (Ll : length (map lp (select us cs)) = length (filter (fun u => u) us)) by (rewrite map_length; apply select_length; lia).
  rewrite slice_skip, <- Ll, firstn_app, Nat.sub_diag, firstn_all. cbn [firstn]. rewrite app_nil_r.
  destruct (nth_error samples a) as [s|] eqn:Es; [|apply nth_error_None in Es; lia].
  destruct (HF a s Es) as [F1 F2].
  assert (E0 : exists us' cs', us = true :: us' /\ cs = s :: cs').
  { rewrite <- (nth_at_sample a 0 []) in F1 by (rewrite (arrays_length K B); auto; lia).
    rewrite <- (nth_at_sample a 0 false) in F2 by (rewrite (arrays_length K B); auto; lia).
    fold us in F2. fold cs in F1. destruct us as [|u us']; [simpl in Lus; lia|]. destruct cs as [|c0 cs']; [simpl in Lcs; lia|].
    cbn [nth] in F1, F2. subst. now exists us', cs'. }
  destruct E0 as (us' & cs' & Eus & Ecs).
  destruct (map lp (select us cs)) as [|v0 vs] eqn:Em; [rewrite Eus, Ecs in Em; discriminate|].
  assert (v0 = lp s) by (rewrite Eus, Ecs in Em; cbn [select map] in Em; congruence). subst v0. rewrite <- Em.
  rewrite (app_assoc pre), <- app_length. rewrite IH by lia. cbn [bind]. do 2 f_equal.
  rewrite select_sum.
  - rewrite Lus. replace (nth a samples []) with s by (symmetry; now apply nth_error_nth).
    unfold cs. now apply (sample_sum lp K B c samples).
  - unfold us. rewrite !at_sample_length. rewrite !(arrays_length K B); auto.
  - lia.
  - intros k Hk. destruct (Nat.lt_ge_cases k K) as [Hlt|Hge].
    + rewrite nth_at_sample by (rewrite (arrays_length K B); auto). apply HU; [lia|lia|].
      rewrite <- nth_at_sample by (rewrite (arrays_length K B); auto). exact Hk.
    + apply nth_overflow. rewrite at_sample_length, (arrays_length K B); auto.
Qed.

Lemma unbalanced_ok lp K c samples : rectangular K (length samples) c -> 0 < K ->
  first_is_sample samples c -> unused_vanish K (length samples) c ->
  local_values_unbalanced lp (length samples) c =
  Ok (map (fun b => local_energy_of lp K c b (nth b samples [])) (seq 0 (length samples))).
Proof.
  intros R HK HF HU. unfold local_values_unbalanced, get_flat_local_connections_log_values. cbv zeta.
  pose proof R as (R1 & R2 & R3).
  rewrite select_flat_map, map_flat_map.
  - apply (unbalanced_loop_ok lp K (length samples) c samples) with (pre := []); auto.
  - intros b _. rewrite !at_sample_length, !(arrays_length K (length samples)); auto.
Qed.

(** * The balanced path *)
Lemma chunks {A} B : forall (rows : list (list A)), Forall (fun r => length r = B) rows ->
  map (fun k => slice (concat rows) (k * B) (k * B + B)) (range (length rows)) = rows.
Proof.
  intros rows. unfold range. induction rows as [|r rows IH]; intros F; [reflexivity|].
  inversion F as [|? ? F1 F2]; subst. cbn [length seq map concat]. f_equal.
  - unfold slice. cbn [Nat.mul Nat.add skipn]. rewrite Nat.sub_0_r, firstn_app, Nat.sub_diag, firstn_all. cbn [firstn].
    apply app_nil_r.
  - rewrite <- seq_shift, map_map. etransitivity; [|apply IH; exact F2]. apply map_ext. intros k.
    replace (S k * length r) with (length r + k * length r) by (cbn [Nat.mul]; lia).
    unfold slice. rewrite skipn_app, skipn_all2 by lia. rewrite app_nil_l. f_equal; [lia|]. f_equal. lia.
Qed.

Lemma at_sample_map2 b B (f : C -> C -> C) : forall ms vs : list (list C),
  Forall (fun r => length r = B) ms -> Forall (fun r => length r = B) vs -> b < B -> length ms = length vs ->
  at_sample b C0 (map2 (map2 f) ms vs) = map2 f (at_sample b C0 ms) (at_sample b C0 vs).
Proof.
  assert (N : forall r1 r2 : list C, length r1 = length r2 -> b < length r1 ->
            nth b (map2 f r1 r2) C0 = f (nth b r1 C0) (nth b r2 C0)).
  { generalize b. clear. intros b r1. revert b. induction r1 as [|x r1 IH]; intros b [|y r2] L Hb; simpl in *; try lia.
    destruct b; [reflexivity|]. apply IH; lia. }
  induction ms as [|r ms IH]; intros [|v vs] F1 F2 Hb L; simpl in L; try lia; [reflexivity|].
  inversion F1; inversion F2; subst. cbn [map2 at_sample map]. rewrite N by lia. f_equal. apply IH; auto.
Qed.

Lemma balanced_ok lp K c samples : rectangular K (length samples) c -> 0 < K ->
  first_is_sample samples c ->
  local_values_balanced lp (length samples) c =
  Ok (map (fun b => local_energy_of lp K c b (nth b samples [])) (seq 0 (length samples))).
Proof.
  intros R HK HF. pose proof R as (R1 & R2 & R3). set (B := length samples) in *.
  unfold local_values_balanced. cbv zeta. rewrite concat_map.
  rewrite <- (map_length (map lp) (conns c)), chunks.
  2: { destruct R1 as [_ F]. apply Forall_forall. intros r Hr. apply in_map_iff in Hr. destruct Hr as (r' & <- & Hr').
       rewrite map_length. rewrite Forall_forall in F. now apply F. }
  destruct R1 as [L1 F1]. destruct (map (map lp) (conns c)) as [|w ws] eqn:Ew.
  { apply (f_equal (@length _)) in Ew. rewrite map_length in Ew. simpl in Ew. lia. }
  rewrite <- Ew.
  assert (Hw : w = map lp (nth 0 (conns c) [])).
  { destruct (conns c) as [|r0 rs]; [discriminate|]. cbn [map] in Ew. cbn [nth]. congruence. }
  clear Ew ws. subst w.
  assert (Lr : length (nth 0 (conns c) []) = B).
  { rewrite Forall_forall in F1. apply F1. apply nth_In. lia. }
  assert (FB : Forall (fun r : list C => length r = B) (map (map lp) (conns c))).
  { apply Forall_forall. intros r Hr. apply in_map_iff in Hr. destruct Hr as (r' & <- & Hr').
    rewrite map_length. rewrite Forall_forall in F1. now apply F1. }
  f_equal. apply map_ext_in. intros b Hb. unfold range in Hb. apply in_seq in Hb.
  destruct (nth_error samples b) as [s|] eqn:Es; [|apply nth_error_None in Es; unfold B in *; lia].
  destruct (HF b s Es) as [E1 _].
  replace (nth b samples []) with s by (symmetry; now apply nth_error_nth).
  rewrite <- (sample_sum lp K B c samples b s R Es).
  rewrite (at_sample_map2 b B).
  - assert (Q : at_sample b C0 (map (fun row => map2 (fun v v0 => Cexp (v - v0)%C) row (map lp (nth 0 (conns c) [])))
                                  (map (map lp) (conns c))) =
              map (fun x => Cexp (lp x - lp s)%C) (at_sample b [] (conns c))).
    { unfold at_sample. rewrite !map_map. apply map_ext_in. intros r Hr.
      assert (length r = B) by (rewrite Forall_forall in F1; auto).
      assert (N : forall (r1 r2 : list C) b, length r1 = length r2 -> b < length r1 ->
            nth b (map2 (fun v v0 => Cexp (v - v0)%C) r1 r2) C0 = Cexp (nth b r1 C0 - nth b r2 C0)%C).
      { clear. intros r1. induction r1 as [|x r1 IH]; intros [|y r2] b L Hb; simpl in L, Hb; try lia.
        destruct b; [reflexivity|]. cbn [map2 nth]. apply IH; lia. }
      rewrite N by (rewrite !map_length; lia). f_equal.
      rewrite !(nth_map_in lp _ _ C0 []) by lia. do 2 f_equal.
      unfold entry in E1. exact E1. }
    rewrite Q, (all_sum lp (lp s)) by (rewrite !at_sample_length, (arrays_length K B) by auto; now rewrite L1).
    rewrite at_sample_length, (arrays_length K B) by auto. reflexivity.
  - apply R2.
  - apply Forall_forall. intros r Hr. apply in_map_iff in Hr. destruct Hr as (r' & <- & Hr').
    rewrite Forall_forall in FB. specialize (FB r' Hr').
    assert (M : forall (f : C -> C -> C) (r1 r2 : list C), length r1 = length r2 -> length (map2 f r1 r2) = length r1).
    { clear. intros f r1. induction r1; intros [|] L; simpl in *; auto; try lia. }
    rewrite M; rewrite ?map_length; lia.
  - lia.
  - rewrite !map_length, (arrays_length K B) by auto. now rewrite L1.
Qed.

Lemma local_values_ok lp K c samples : rectangular K (length samples) c -> 0 < K ->
  first_is_sample samples c -> unused_vanish K (length samples) c ->
  local_values lp (length samples) c =
  Ok (map (fun b => local_energy_of lp K c b (nth b samples [])) (seq 0 (length samples))).
Proof.
  intros R HK HF HU. unfold local_values.
  destruct (_ <? _); [now apply unbalanced_ok | now apply balanced_ok].
Qed.

(** * Rows of a matrix *)
Lemma NoDup_strings vals n : NoDup vals -> NoDup (strings vals n).
Proof.
  intros N. induction n as [|n IH]; cbn [strings]; [repeat constructor; intros []|].
  apply NoDup_flat_map; auto.
  - intros a _. apply FinFun.Injective_map_NoDup; auto. intros x y E. congruence.
  - intros a a' b _ _ H1 H2. apply in_map_iff in H1. apply in_map_iff in H2.
    destruct H1 as (? & <- & _). destruct H2 as (? & E & _). congruence.
Qed.
Lemma NoDup_spin_configs n : NoDup (spin_configs n).
Proof. apply NoDup_strings. repeat constructor; simpl; intuition lia. Qed.

Lemma Csum_single {A} (dec : forall x y : A, {x = y} + {x <> y}) (f : A -> C) a l : NoDup l -> In a l ->
  Csum (fun t => if dec a t then f t else C0) l = f a.
Proof.
  intros N. induction N as [|x l Hx N IH]; intros H; [destruct H|]. rewrite Csum_cons. destruct (dec a x) as [->|Ne].
  - rewrite (Csum_ext _ (fun _ => C0)).
    + rewrite Csum_zero. ring.
    + intros t Ht. destruct (dec x t); [subst; contradiction|reflexivity].
  - destruct H as [->|H]; [congruence|]. rewrite IH by exact H. ring.
Qed.

Lemma represents_local n K H samples c lp b s : represents n K H samples c -> nth_error samples b = Some s ->
  local_energy_of lp K c b s = local_energy n H lp s.
Proof.
  intros (R & HF & HU & HR) Es. destruct (HR b s Es) as [Hin Hsum].
  unfold local_energy_of, local_energy, apply_matrix, Cdiv.
  rewrite (Csum_ext _ (fun t => (Csum (fun k => (if entry false (uses c) k b then
       if list_eq_dec Z.eq_dec (entry [] (conns c) k b) t then entry C0 (mels c) k b else C0 else C0)) (seq 0 K) * Cexp (lp t))%C) (spin_configs n)).
  2: { intros t Ht. now rewrite Hsum. }
  rewrite (Csum_ext (fun t => (Csum _ (seq 0 K) * Cexp (lp t))%C) (fun t => Csum (fun k => ((if entry false (uses c) k b then
       if list_eq_dec Z.eq_dec (entry [] (conns c) k b) t then entry C0 (mels c) k b else C0 else C0) * Cexp (lp t))%C) (seq 0 K))).
  2: { intros t _. symmetry. apply Csum_scal_r. }
  rewrite Csum_exchange, <- Csum_scal_r. apply Csum_ext. intros k Hk. apply in_seq in Hk.
  assert (Hb : b < length samples) by (apply nth_error_Some; congruence).
  destruct (entry false (uses c) k b) eqn:Eu.
  - rewrite (Csum_ext _ (fun t => if list_eq_dec Z.eq_dec (entry [] (conns c) k b) t
                                  then (entry C0 (mels c) k b * Cexp (lp t))%C else C0)).
    + rewrite (Csum_single (list_eq_dec Z.eq_dec) (fun t => (entry C0 (mels c) k b * Cexp (lp t))%C)).
      * ring.
      * apply NoDup_spin_configs.
      * apply Hin; [lia|exact Eu].
    + intros t _. destruct (list_eq_dec _ _ _); ring.
  - rewrite (HU k b) by (auto; lia). rewrite (Csum_ext (fun t => (C0 * Cexp (lp t))%C) (fun _ => C0)) by (intros; ring). rewrite Csum_zero. ring.
Qed.

(** * The lattice operators *)
Lemma spins_in n s : spins n s <-> In s (spin_configs n).
Proof.
  unfold spin_configs. rewrite in_strings. unfold spins. split; intros [L F]; split; auto; revert F; apply Forall_impl;
    intros x; unfold is_spin; simpl; intuition lia.
Qed.

Lemma Csum_combine {A B} (f : A * B -> C) (l1 : list A) : forall (l2 : list B) d1 d2, length l1 = length l2 ->
  Csum f (combine l1 l2) = Csum (fun k => f (nth k l1 d1, nth k l2 d2)) (seq 0 (length l1)).
Proof.
  induction l1 as [|a l1 IH]; intros [|b l2] d1 d2 L; simpl in L; try lia; [reflexivity|].
  cbn [combine length seq]. rewrite !Csum_cons, <- seq_shift, Csum_map, (IH l2 d1 d2) by lia. reflexivity.
Qed.

Lemma flip_site_spins n s k : spins n s -> spins n (flip_site s k).
Proof.
  intros [L F]. unfold flip_site. split; [now rewrite upd_length|]. apply Forall_forall. intros x Hx.
  apply In_nth with (d := 0%Z) in Hx. destruct Hx as (i & Hi & <-). rewrite upd_length in Hi.
  rewrite Forall_forall in F. destruct (Nat.eq_dec k i) as [->|N].
  - rewrite nth_upd_same by lia. destruct (F (nth i s 0%Z) (nth_In _ _ Hi)) as [E|E]; rewrite E; [right|left]; reflexivity.
  - rewrite nth_upd_other by lia. apply F, nth_In. lia.
Qed.

Lemma nth_column {A} b (d d' : A) rows k : k < length rows -> nth k (column b d rows) d' = entry d rows k b.
Proof.
  intros H. unfold column, entry. rewrite (nth_map_in _ _ _ d' []) by exact H. reflexivity.
Qed.

Lemma entry_RtoC mel k b : entry C0 (map (map RtoC) mel) k b = RtoC (entry 0%R mel k b).
Proof.
  unfold entry. change (@nil C) with (map RtoC []). rewrite map_nth. change C0 with (RtoC 0%R). now rewrite map_nth.
Qed.

Lemma ising_represents J h pbc shape samples : good_shape shape pbc ->
  (forall s, In s samples -> spins (sites_of shape) s) ->
  exists conn mel use, ising_find_conn J (PyFloat h) pbc shape samples = Ok (conn, mel, use) /\
    represents (sites_of shape) (ising_max_conn shape)
      (fun s t => RtoC (ising_element J h (shape_bonds shape pbc) s t)) samples (of_real_arrays conn mel use).
Proof.
  intros G Hs. destruct (ising_find_conn_ok J (PyFloat h) pbc shape samples G) as (conn & mel & use & E & L1 & L2 & U & H).
  exists conn, mel, use. split; [exact E|].
  assert (Rows : Forall (fun r => length r = length samples) conn /\ Forall (fun r => length r = length samples) mel).
  { revert E. unfold ising_find_conn. destruct (check_dims shape); [|discriminate]. cbn [bind].
    rewrite (mapM_ok _ _ _ (fun s _ => self_mel_ok J pbc shape s G)). cbn [bind]. intros E. injection E as <- <- _.
    split; constructor.
    - reflexivity.
    - apply Forall_forall. intros r Hr. apply in_map_iff in Hr. destruct Hr as (k & <- & _). apply map_length.
    - now rewrite !map_length.
    - apply Forall_forall. intros r Hr. apply repeat_spec in Hr. subst r. apply repeat_length. }
  destruct Rows as [F1 F2]. unfold represents, of_real_arrays.
  assert (HU : forall k b, k < ising_max_conn shape -> b < length samples -> entry false use k b = true).
  { intros k b Hk Hb. subst use. unfold entry. rewrite (nth_indep _ _ (repeat true (length samples))) by now rewrite repeat_length.
    rewrite nth_repeat. rewrite (nth_indep _ _ true) by now rewrite repeat_length. apply nth_repeat. }
  assert (K0 : 0 < ising_max_conn shape) by (unfold ising_max_conn; lia).
  split; [|split; [|split]].
  - unfold rectangular, arrays. cbn [conns mels uses]. repeat split; auto.
    + now rewrite map_length.
    + apply Forall_forall. intros r Hr. apply in_map_iff in Hr. destruct Hr as (r' & <- & Hr'). rewrite map_length.
      rewrite Forall_forall in F2. auto.
    + subst use. apply repeat_length.
    + subst use. apply Forall_forall. intros r Hr. apply repeat_spec in Hr. subst r. apply repeat_length.
  - intros b s Hb. cbn [conns uses]. assert (Hl : b < length samples) by (apply nth_error_Some; congruence).
    destruct (H b Hl) as [H1 _]. rewrite (nth_error_nth _ _ [] Hb) in H1. split; [|now apply HU].
    rewrite <- (nth_column b [] []) by lia. now rewrite H1.
  - intros k b Hk Hb. cbn [uses]. rewrite HU by assumption. discriminate.
  - intros b s Hb. cbn [conns uses mels]. assert (Hl : b < length samples) by (apply nth_error_Some; congruence).
    specialize (H b Hl). rewrite (nth_error_nth _ _ [] Hb) in H. cbv zeta in H. destruct H as [H1 H2].
    assert (Sp : spins (sites_of shape) s) by (apply Hs; eapply nth_error_In; eauto).
    split.
    + intros k Hk _. rewrite <- (nth_column b [] []) by lia. rewrite H1. apply spins_in.
      destruct k as [|k]; [exact Sp|]. cbn [nth]. unfold ising_max_conn in Hk. fold (sites_of shape) in Hk.
      rewrite (nth_map_in _ _ _ [] 0) by (rewrite range_length; lia). now apply flip_site_spins.
    + intros t Ht. apply spins_in in Ht. destruct Sp as [Ls Fs]. destruct Ht as [Lt Ft].
      rewrite <- (ising_row s t J h (shape_bonds shape pbc)) by (auto; lia).
      unfold row_sum. rewrite Ls. change (- h)%R with (neg_h (PyFloat h)).
      change (- J * _)%R with (store (PyFloat h) (- J * Rsum (fun b => IZR (spin s (fst b) * spin s (snd b))) (shape_bonds shape pbc))%R).
      rewrite <- H1, <- H2, <- Csum_RtoC, (Csum_combine _ _ _ [] 0%R) by (unfold column; rewrite !map_length; lia).
      replace (length (column b [] conn)) with (ising_max_conn shape) by (unfold column; now rewrite map_length).
      apply Csum_ext. intros k Hk. apply in_seq in Hk. cbn [fst snd].
      rewrite HU by lia. rewrite !nth_column by lia. rewrite entry_RtoC. destruct (list_eq_dec _ _ _); reflexivity.
Qed.

Lemma IZR_Zsum {A} (f : A -> Z) l : IZR (Zsum f l) = Rsum (fun a => IZR (f a)) l.
Proof. induction l as [|a l IH]; [reflexivity|]. rewrite Zsum_cons, Rsum_cons, plus_IZR, IH. reflexivity. Qed.

Definition samples_of (bufs : list buffers) : list (list (list Z) * list Z * list bool) :=
  map (fun r => (all_conn r, all_mel r, all_use r)) bufs.

Lemma entry_of {A B} (f : nat -> A -> B) (d : B) n l k b a : k < n -> nth_error l b = Some a ->
  entry d (map (fun k => map (f k) l) (range n)) k b = f k a.
Proof.
  intros Hk Hb. unfold entry. rewrite (nth_map_in _ _ _ [] 0) by (rewrite range_length; exact Hk).
  unfold range. rewrite seq_nth by exact Hk. cbn [Nat.add]. apply nth_error_nth. now apply map_nth_error.
Qed.

Lemma heisenberg_represents shape rot pbc batches samples : chain_or_grid shape ->
  (forall s, In s samples -> spins (sites_of shape) s) ->
  exists H H1 ref,
    run_calls (heisenberg_init shape rot pbc) batches = Ok H /\
    heisenberg_find_conn H samples = Ok (H1, ref) /\
    represents (sites_of shape) (max_number_of_local_connections shape)
      (fun s t => RtoC (IZR (heisenberg_element (if rot then -2 else 2) (shape_bonds shape pbc) s t))) samples
      (of_samples (max_number_of_local_connections shape) (map (fun r => (all_conn r, all_mel r, all_use r)) (read_result H1 ref))).
Proof.
  intros G Hs. destruct (heisenberg_rows shape rot pbc batches samples G) as (H & H1 & ref & E1 & E2 & L & HR).
  exists H, H1, ref. split; [exact E1|]. split; [exact E2|]. set (K := max_number_of_local_connections shape).
  set (bufs := read_result H1 ref) in *. fold (samples_of bufs).
  assert (Ls : length (samples_of bufs) = length samples) by (unfold samples_of; rewrite map_length; exact L).
  assert (K0 : 0 < K) by (unfold K, max_number_of_local_connections; lia).
  assert (Get : forall b s, nth_error samples b = Some s -> exists r, nth_error bufs b = Some r /\
            nth_error (samples_of bufs) b = Some (all_conn r, all_mel r, all_use r)).
  { intros b s Hb. assert (b < length bufs) by (rewrite L; apply nth_error_Some; congruence).
    destruct (nth_error bufs b) as [r|] eqn:Er; [|apply nth_error_None in Er; lia].
    exists r. split; [reflexivity|]. unfold samples_of. now rewrite (map_nth_error _ _ _ Er). }
  assert (Arr : forall {A} (f : nat -> list (list Z) * list Z * list bool -> A),
            arrays K (length samples) (map (fun k => map (f k) (samples_of bufs)) (range K))).
  { intros A f. split; [now rewrite map_length, range_length|]. apply Forall_forall. intros r Hr. apply in_map_iff in Hr.
    destruct Hr as (k & <- & _). now rewrite map_length. }
  unfold represents, of_samples. split; [|split; [|split]].
  - unfold rectangular. cbn [conns mels uses]. split; [|split]; apply Arr.
  - intros b s Hb. cbn [conns uses]. destruct (Get b s Hb) as (r & Er & Es).
    rewrite !(entry_of _ _ K _ 0 b _ K0 Es). cbn [fst snd].
    destruct (HR b s r Hb Er) as (_ & A & B & _); [apply Hs; eapply nth_error_In; eauto|]. now split.
  - intros k b Hk Hb. cbn [uses mels]. destruct (nth_error samples b) as [s|] eqn:Es; [|apply nth_error_None in Es; lia].
    destruct (Get b s Es) as (r & Er & Er'). rewrite !(entry_of _ _ K _ k b _ Hk Er'). cbn [fst snd]. intros Hu.
    destruct (HR b s r Es Er) as (LK & A & B & _ & D); [apply Hs; eapply nth_error_In; eauto|].
    destruct k as [|k]; [congruence|]. specialize (D (S k)). rewrite Hu in D. rewrite D; [reflexivity|]. rewrite LK. fold K. lia.
  - intros b s Hb. cbn [conns uses mels]. destruct (Get b s Hb) as (r & Er & Er').
    destruct (HR b s r Hb Er) as (LK & A & B & Row & D); [apply Hs; eapply nth_error_In; eauto|]. fold K in LK.
    split.
    + intros k Hk. rewrite !(entry_of _ _ K _ k b _ Hk Er'). cbn [fst snd]. intros Hu. apply spins_in.
      destruct k as [|k]; [rewrite A; apply Hs; eapply nth_error_In; eauto|].
      specialize (D (S k)). rewrite Hu in D. apply D. rewrite LK. lia.
    + intros t _. change (if rot then -2 else 2)%Z with (off_diag rot). rewrite <- Row. unfold used_row_sum.
      rewrite IZR_Zsum, <- Csum_RtoC, LK. apply Csum_ext. intros k Hk. apply in_seq in Hk.
      rewrite !(entry_of _ _ K _ k b _ (proj2 Hk) Er'). cbn [fst snd].
      destruct (nth k (all_use r) false); cbn [andb]; [|reflexivity]. destruct (list_eq_dec _ _ _); reflexivity.
Qed.

(** Local values of a represented matrix. *)
Lemma local_values_matrix n K H samples c lp : 0 < K -> represents n K H samples c ->
  local_values lp (length samples) c = Ok (map (local_energy n H lp) samples).
Proof.
  intros HK HR. pose proof HR as (R & HF & HU & _). rewrite (local_values_ok lp K) by assumption. f_equal.
  assert (E : samples = map (fun b => nth b samples []) (seq 0 (length samples))).
  { symmetry. apply nth_ext with (d := []) (d' := []).
    - now rewrite map_length, seq_length.
    - intros i Hi. rewrite map_length, seq_length in Hi. rewrite (nth_map_in _ _ _ [] 0) by now rewrite seq_length.
      now rewrite seq_nth. }
  transitivity (map (local_energy n H lp) (map (fun b => nth b samples []) (seq 0 (length samples)))); [|now rewrite <- E].
  rewrite map_map. apply map_ext_in. intros b Hb. apply in_seq in Hb.
  apply (represents_local n K H samples c lp b); [exact HR|].
  destruct (nth_error samples b) as [s|] eqn:Es; [|apply nth_error_None in Es; lia]. f_equal. symmetry. now apply nth_error_nth.
Qed.

(** * Zero variance *)
Local Open Scope R_scope.
Lemma eigenstate_local n H E lp s : eigenstate n H E lp -> In s (spin_configs n) -> local_energy n H lp s = E.
Proof.
  intros HE Hs. unfold local_energy. rewrite HE by exact Hs. unfold Cdiv.
  replace (E * Cexp (lp s) * Cinv (Cexp (lp s)))%C with (E * (Cexp (lp s) * Cinv (Cexp (lp s))))%C by ring.
  rewrite Cmult_inv_r by apply Cexp_nonzero. ring.
Qed.

Lemma INR_length_pos {A} (l : list A) : l <> [] -> 0 < INR (length l).
Proof. intros H. apply lt_0_INR. destruct l; [congruence|simpl; lia]. Qed.

Lemma Rsum_const {A} (l : list A) (x : R) : Rsum (fun _ => x) l = INR (length l) * x.
Proof.
  induction l as [|a l IH]; [simpl; ring|]. rewrite Rsum_cons, IH. cbn [length]. rewrite S_INR. ring.
Qed.
Lemma Csum_const {A} (l : list A) (x : C) : Csum (fun _ => x) l = Cscale (INR (length l)) x.
Proof.
  apply C_eq; [rewrite Re_Csum|rewrite Im_Csum]; rewrite Rsum_const; reflexivity.
Qed.

Lemma Cmean_const (l : list C) E : l <> [] -> (forall z, In z l -> z = E) -> Cmean l = E.
Proof.
  intros N H. unfold Cmean. rewrite (Csum_ext _ (fun _ => E)) by exact H. rewrite Csum_const.
  pose proof (INR_length_pos l N). apply C_eq; unfold Cscale, Re, Im; cbn [fst snd]; field; lra.
Qed.
Lemma Rmean_const (l : list R) x : l <> [] -> (forall z, In z l -> z = x) -> Rmean l = x.
Proof.
  intros N H. unfold Rmean. rewrite (Rsum_ext _ (fun _ => x)) by exact H. rewrite Rsum_const.
  pose proof (INR_length_pos l N). field; lra.
Qed.

Lemma estimate_const (l : list C) E : l <> [] -> (forall z, In z l -> z = E) ->
  mean_value (estimate l) = E /\ variance (estimate l) = 0.
Proof.
  intros N H. cbn [estimate mean_value variance]. split; [now apply Cmean_const|].
  assert (N' : map Re l <> []) by (destruct l; [congruence|discriminate]).
  assert (M : Rmean (map Re l) = Re E).
  { apply Rmean_const; auto. intros z Hz. apply in_map_iff in Hz. destruct Hz as (w & <- & Hw). now rewrite (H w Hw). }
  unfold Rvar. rewrite M. apply Rmean_const.
  - destruct l; [congruence|discriminate].
  - intros z Hz. apply in_map_iff in Hz. destruct Hz as (w & <- & Hw). apply in_map_iff in Hw.
    destruct Hw as (v & <- & Hv). rewrite (H v Hv). ring.
Qed.

Lemma Rsum_nonneg {A} (f : A -> R) l : (forall a, In a l -> 0 <= f a) -> 0 <= Rsum f l.
Proof.
  induction l as [|a l IH]; intros H; [unfold Rsum; simpl; lra|]. rewrite Rsum_cons.
  pose proof (H a (or_introl eq_refl)). pose proof (IH (fun x Hx => H x (or_intror Hx))). lra.
Qed.
Lemma Rsum_zero_all {A} (f : A -> R) l : (forall a, In a l -> 0 <= f a) -> Rsum f l = 0 -> forall a, In a l -> f a = 0.
Proof.
  induction l as [|a l IH]; intros H E x Hx; [destruct Hx|]. rewrite Rsum_cons in E.
  pose proof (H a (or_introl eq_refl)). pose proof (Rsum_nonneg f l (fun x Hx => H x (or_intror Hx))).
  destruct Hx as [->|Hx]; [lra|]. apply IH; auto. { intros; apply H; now right. } lra.
Qed.

Lemma Rvar_nonneg l : l <> [] -> 0 <= Rvar l.
Proof.
  intros N. unfold Rvar, Rmean at 1. apply Rmult_le_pos.
  - left. apply Rinv_0_lt_compat. rewrite map_length. now apply INR_length_pos.
  - apply Rsum_nonneg. intros x Hx. apply in_map_iff in Hx. destruct Hx as (y & <- & _). apply Rle_0_sqr.
Qed.
Lemma Rvar_zero l : l <> [] -> Rvar l = 0 -> forall x, In x l -> x = Rmean l.
Proof.
  intros N E x Hx. unfold Rvar, Rmean at 1 in E. apply Rmult_integral in E. destruct E as [E|E].
  { exfalso. revert E. apply Rinv_neq_0_compat. rewrite map_length. pose proof (INR_length_pos l N). lra. }
  assert (0 = 0) by reflexivity.
  apply (Rsum_zero_all (fun x => x)) with (a := (x - Rmean l) * (x - Rmean l)) in E.
  - apply Rmult_integral in E. lra.
  - intros y Hy. apply in_map_iff in Hy. destruct Hy as (z & <- & _). apply Rle_0_sqr.
  - apply in_map_iff. exists x. now split.
Qed.

Lemma zero_variance n K H samples c lp E : (0 < K)%nat -> represents n K H samples c -> samples <> [] ->
  (forall s, In s samples -> In s (spin_configs n)) -> eigenstate n H E lp ->
  exists l, local_values lp (length samples) c = Ok l /\ (forall z, In z l -> z = E) /\
    mean_value (estimate l) = E /\ variance (estimate l) = 0.
Proof.
  intros HK HR N Hs HE. exists (map (local_energy n H lp) samples). split; [now apply (local_values_matrix n K)|].
  assert (A : forall z, In z (map (local_energy n H lp) samples) -> z = E).
  { intros z Hz. apply in_map_iff in Hz. destruct Hz as (s & <- & Hz). apply (eigenstate_local n H E lp); auto. }
  split; [exact A|]. apply estimate_const; auto. destruct samples; [congruence|discriminate].
Qed.

Lemma variance_facts (l : list C) : l <> [] ->
  0 <= variance (estimate l) /\ (variance (estimate l) = 0 -> forall z, In z l -> Re z = Re (mean_value (estimate l))).
Proof.
  intros N. assert (N' : map Re l <> []) by (destruct l; [congruence|discriminate]).
  cbn [estimate variance mean_value]. split; [now apply Rvar_nonneg|].
  intros E z Hz. rewrite (Rvar_zero _ N' E (Re z)) by now apply in_map.
  unfold Rmean, Cmean. rewrite map_length, Rsum_map, <- Re_Csum. reflexivity.
Qed.

Lemma Cexp_half_pi : Cexp (0, PI / 2) = (0, 1).
Proof. unfold Cexp. cbn [fst snd]. rewrite exp_0, cos_PI2, sin_PI2. f_equal; ring. Qed.
Lemma variance_blind :
  exists conn mel use l, ising_find_conn 0 (PyFloat (-1)) false [1%nat] [[1]; [-1]]%Z = Ok (conn, mel, use) /\
    local_values tilted 2 (of_real_arrays conn mel use) = Ok l /\ l = [(0, 1); (0, -1)] /\
    variance (estimate l) = 0 /\ forall E, ~ eigenstate 1 (fun s t => RtoC (ising_element 0 (-1) (shape_bonds [1%nat] false) s t)) E tilted.
Proof.
  assert (G : good_shape [1%nat] false) by (left; exists 1%nat; split; [reflexivity|right; split; [reflexivity|lia]]).
  destruct (ising_represents 0 (-1) false [1%nat] [[1]; [-1]]%Z G) as (conn & mel & use & E & HR).
  { intros s [<-|[<-|[]]]; (split; [reflexivity|]); unfold is_spin; repeat constructor; lia. }
  exists conn, mel, use, [(0, 1); (0, -1)]. split; [exact E|].
  assert (E10 : Cexp C0 = (1, 0)) by exact Cexp_0.
  assert (L1 : local_energy (sites_of [1%nat]) (fun s t => RtoC (ising_element 0 (-1) (shape_bonds [1%nat] false) s t)) tilted [1]%Z = (0, 1)).
  { unfold local_energy, apply_matrix, spin_configs. cbn [sites_of fold_right Nat.mul strings flat_map map app].
    unfold Csum, ising_element, tilted. cbn -[Cexp Cinv PI]. rewrite !E10, Cexp_half_pi.
    unfold Cdiv, Cinv, Cmult, Cplus, RtoC, Cnorm2, C0, Rsum. cbn [fst snd fold_right]. f_equal; field. }
  assert (L2 : local_energy (sites_of [1%nat]) (fun s t => RtoC (ising_element 0 (-1) (shape_bonds [1%nat] false) s t)) tilted [-1]%Z = (0, -1)).
  { unfold local_energy, apply_matrix, spin_configs. cbn [sites_of fold_right Nat.mul strings flat_map map app].
    unfold Csum, ising_element, tilted. cbn -[Cexp Cinv PI]. rewrite !E10, Cexp_half_pi.
    unfold Cdiv, Cinv, Cmult, Cplus, RtoC, Cnorm2, C0, Rsum. cbn [fst snd fold_right]. f_equal; field. }
  split; [|split; [reflexivity|split]].
  - assert (K0 : (0 < ising_max_conn [1%nat])%nat) by (cbn; lia).
    etransitivity; [exact (local_values_matrix _ _ _ [[1]; [-1]]%Z _ tilted K0 HR)|]. cbn [map]. now rewrite L1, L2.
  - cbn [estimate variance]. unfold Rvar, Rmean. cbn [map Re fst length]. unfold Rsum. cbn [fold_right]. simpl INR. field.
  - intros E0 HE. pose proof (eigenstate_local _ _ _ _ [1]%Z HE) as P1. pose proof (eigenstate_local _ _ _ _ [-1]%Z HE) as P2.
    change 1%nat with (sites_of [1%nat]) in P1 at 2. change 1%nat with (sites_of [1%nat]) in P2 at 2.
    rewrite L1 in P1. rewrite L2 in P2. rewrite <- P2 in P1 by (simpl; auto).
    assert (Q : (0, 1) = (0, -1) :> C) by (apply P1; simpl; auto). injection Q as Q. lra.
Qed.

(** * Loss coefficients *)
Lemma map2_map_r {A B D E} (f : A -> D -> E) (g : B -> D) l1 : forall l2, map2 f l1 (map g l2) = map2 (fun a b => f a (g b)) l1 l2.
Proof. induction l1 as [|a l1 IH]; intros [|b l2]; cbn [map map2]; auto. now rewrite IH. Qed.
Lemma map2_length {A B D} (f : A -> B -> D) l1 : forall l2, length l1 = length l2 -> length (map2 f l1 l2) = length l1.
Proof. induction l1 as [|a l1 IH]; intros [|b l2] L; simpl in *; auto; try lia. Qed.
Lemma map2_app {A B D} (f : A -> B -> D) l1 : forall l2 m1 m2, length l1 = length l2 ->
  map2 f (l1 ++ m1) (l2 ++ m2) = map2 f l1 l2 ++ map2 f m1 m2.
Proof. induction l1 as [|a l1 IH]; intros [|b l2] m1 m2 L; simpl in L; try lia; cbn [app map2]; auto. rewrite IH by lia. reflexivity. Qed.

Lemma coefficients_sum B e l : Csum (fun z => z) (loss_coefficients B e l) =
  Cscale (/ INR B) (Cconj (Csum (fun z => z) l - Cscale (INR (length l)) e)).
Proof.
  unfold loss_coefficients. rewrite Csum_map. rewrite <- (Csum_const l e), <- Csum_minus, Csum_conj.
  rewrite (Csum_ext (fun a => Cscale (/ INR B) _) (fun a => (RtoC (/ INR B) * Cconj (a - e))%C)) by (intros; apply Cscale_RtoC).
  rewrite Csum_scal, <- Cscale_RtoC. reflexivity.
Qed.

Lemma Cscale_mean l : l <> [] -> Cscale (INR (length l)) (Cmean l) = Csum (fun z => z) l.
Proof.
  intros N. unfold Cmean. pose proof (INR_length_pos l N).
  apply C_eq; unfold Cscale, Re, Im; cbn [fst snd]; field; lra.
Qed.

Lemma centred B l : l <> [] -> Csum (fun z => z) (loss_coefficients B (mean_value (estimate l)) l) = C0.
Proof.
  intros N. rewrite coefficients_sum. cbn [estimate mean_value]. rewrite Cscale_mean by exact N.
  apply C_eq; unfold Cscale, Cconj, Cminus, Re, Im, C0; cbn [fst snd]; ring.
Qed.

Lemma Rsum_loss_shift ys k : forall ps, length ys = length ps ->
  Rsum (fun x => x) (map2 loss_for_energy_minimization ys (map (fun p => (p + k)%C) ps)) =
  Rsum (fun x => x) (map2 loss_for_energy_minimization ys ps) + 2 * Re (k * Csum (fun z => z) ys)%C.
Proof.
  induction ys as [|y ys IH]; intros [|p ps] L; simpl in L; try lia.
  - unfold Rsum, Csum, C0, Cmult, Re. cbn [map map2 fold_right fst snd]. ring.
  - cbn [map map2]. rewrite !Rsum_cons, Csum_cons, IH by lia. unfold loss_for_energy_minimization, Re, Cmult, Cplus. cbn [fst snd]. ring.
Qed.

Lemma shift_no_loss B l ps k : l <> [] -> length l = length ps ->
  let ys := loss_coefficients B (mean_value (estimate l)) l in
  batch_loss ys (map (fun p => (p + k)%C) ps) = batch_loss ys ps.
Proof.
  intros N L ys. assert (Ly : length ys = length ps) by (unfold ys, loss_coefficients; now rewrite map_length).
  unfold batch_loss, Rmean. rewrite Rsum_loss_shift by exact Ly. unfold ys at 3. rewrite centred by exact N.
  rewrite !map2_length by (rewrite ?map_length; lia). f_equal. unfold Re, Cmult, C0. cbn [fst snd]. ring.
Qed.

(** * Several workers *)
Lemma Csum_concat {A} (f : A -> C) ls : Csum f (concat ls) = Csum (fun l => Csum f l) ls.
Proof. induction ls as [|l ls IH]; [reflexivity|]. cbn [concat]. now rewrite Csum_app, Csum_cons, IH. Qed.

Lemma concat_size {A} B (ls : list (list A)) : Forall (fun l => length l = B) ls -> length (concat ls) = (length ls * B)%nat.
Proof. induction 1; [reflexivity|]. cbn [concat length Nat.mul]. rewrite app_length. lia. Qed.

Lemma reduced_is_mean B ls : (0 < B)%nat -> ls <> [] -> Forall (fun l => length l = B) ls ->
  reduced_energy (map (fun vs => mean_value (estimate vs)) ls) = Cmean (concat ls).
Proof.
  intros HB N F. unfold reduced_energy, Rmean, Cmean. rewrite !map_map, !map_length, !Rsum_map, (concat_size B) by exact F.
  rewrite Csum_concat, mult_INR. pose proof (INR_length_pos ls N) as PL. assert (PB : 0 < INR B) by (now apply lt_0_INR).
  assert (E : forall P : C -> R, (forall r z, P (Cscale r z) = r * P z) ->
    Rsum (fun a => P (mean_value (estimate a))) ls = / INR B * Rsum (fun a => P (Csum (fun z => z) a)) ls).
  { intros P HP. rewrite <- Rsum_scal. apply Rsum_ext. intros a Ha. rewrite Forall_forall in F.
    cbn [estimate mean_value]. unfold Cmean. rewrite HP, (F a Ha). reflexivity. }
  rewrite !E by reflexivity. rewrite <- Re_Csum, <- Im_Csum.
  change (Csum (fun l : list C => Csum (fun z : C => z) l) ls) with (Csum (Csum (fun z : C => z)) ls).
  generalize (Csum (Csum (fun z : C => z)) ls). intros z.
  apply C_eq; unfold Cscale, Re, Im; cbn [fst snd]; field; lra.
Qed.

Lemma batch_loss_concat B e : forall ls ps, Forall2 (fun l p => length l = length p /\ length l = B) ls ps ->
  Rsum (fun x => x) (map2 loss_for_energy_minimization (concat (map (loss_coefficients B e) ls)) (concat ps)) =
  Rsum (fun x => Rsum (fun x => x) x) (map2 (map2 loss_for_energy_minimization) (map (loss_coefficients B e) ls) ps).
Proof.
  intros ls ps F. induction F as [|l p ls ps [H1 H2] F IH]; [reflexivity|].
  cbn [map concat map2]. rewrite map2_app by (unfold loss_coefficients; rewrite map_length; lia).
  rewrite Rsum_app, Rsum_cons, IH. reflexivity.
Qed.

Lemma loss_scale r y p : loss_for_energy_minimization (Cscale r y) p = r * loss_for_energy_minimization y p.
Proof. unfold loss_for_energy_minimization, Cscale, Re, Cmult. cbn [fst snd]. ring. Qed.

Lemma losses_scale B B' e l : (0 < B)%nat -> (0 < B')%nat -> forall ps,
  Rsum (fun x => x) (map2 loss_for_energy_minimization (loss_coefficients B' e l) ps) =
  INR B / INR B' * Rsum (fun x => x) (map2 loss_for_energy_minimization (loss_coefficients B e l) ps).
Proof.
  intros H1 H2. assert (0 < INR B) by now apply lt_0_INR. assert (0 < INR B') by now apply lt_0_INR.
  unfold loss_coefficients. induction l as [|a l IH]; intros [|p ps]; cbn [map map2]; try (unfold Rsum; simpl; ring).
  rewrite !Rsum_cons, IH, !loss_scale. field. lra.
Qed.

Lemma workers B ls ps : (0 < B)%nat -> ls <> [] ->
  Forall2 (fun l p => length l = length p /\ length l = B) ls ps ->
  let n := length ls in
  average (map2 batch_loss (horovod_coefficients B ls) ps) =
  INR n * batch_loss (loss_coefficients (n * B) (mean_value (estimate (concat ls))) (concat ls)) (concat ps).
Proof.
  intros HB N F n. assert (HF : Forall (fun l => length l = B) ls) by (clear N n; induction F as [|? ? ? ? [] ]; constructor; auto).
  assert (Ln : length ls = length ps) by (clear N n HF; induction F; cbn [length]; auto).
  assert (Lps : length (concat ps) = (n * B)%nat).
  { rewrite (concat_size B). { unfold n. now rewrite Ln. }
    clear N n HF Ln; induction F as [|? ? ? ? [] ]; constructor; auto; lia. }
  unfold horovod_coefficients. rewrite (reduced_is_mean B) by assumption. cbn [estimate mean_value].
  set (e := Cmean (concat ls)).
  assert (PB : 0 < INR B) by (now apply lt_0_INR). assert (Pn : 0 < INR n) by (now apply INR_length_pos).
  unfold average. rewrite map2_length by (rewrite map_length; exact Ln). rewrite map_length. fold n.
  unfold batch_loss at 2, Rmean. rewrite map2_length by (unfold loss_coefficients; rewrite map_length, Lps; now apply concat_size).
  unfold loss_coefficients at 2. rewrite map_length, (concat_size B) by exact HF. fold n.
  assert (HnB : (0 < n * B)%nat). { apply INR_lt. simpl. rewrite mult_INR. nra. }
  rewrite (losses_scale B (n * B) e (concat ls) HB HnB).
  assert (Cc : loss_coefficients B e (concat ls) = concat (map (loss_coefficients B e) ls)).
  { unfold loss_coefficients. apply concat_map. }
  rewrite Cc, batch_loss_concat by exact F. rewrite mult_INR.
  assert (S1 : Rsum (fun x => x) (map2 batch_loss (map (loss_coefficients B e) ls) ps) =
               / INR B * Rsum (fun x => Rsum (fun x => x) x) (map2 (map2 loss_for_energy_minimization) (map (loss_coefficients B e) ls) ps)).
  { clearbody e. clear -F PB. induction F as [|l p ls ps [H1 H2] F IH]; [unfold Rsum; simpl; ring|].
    cbn [map map2]. rewrite !Rsum_cons, IH. unfold batch_loss, Rmean.
    rewrite map2_length by (unfold loss_coefficients; rewrite map_length; lia). unfold loss_coefficients at 1. rewrite map_length, H2. ring. }
  rewrite S1. field. lra.
Qed.

Lemma workers_centred B ls : (0 < B)%nat -> ls <> [] -> Forall (fun l => length l = B) ls ->
  Csum (fun z => z) (concat (horovod_coefficients B ls)) = C0.
Proof.
  intros HB N F. unfold horovod_coefficients. rewrite (reduced_is_mean B) by assumption.
  assert (Cc : concat (map (loss_coefficients B (Cmean (concat ls))) ls) = loss_coefficients B (Cmean (concat ls)) (concat ls)).
  { unfold loss_coefficients. symmetry. apply concat_map. }
  rewrite Cc. apply (centred B). intros E. apply (f_equal (@length _)) in E. rewrite (concat_size B) in E by exact F.
  destruct ls; [congruence|]. cbn [length] in E. nia.
Qed.
