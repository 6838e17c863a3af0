(** The samplers based on exact enumeration. *)
From Coq Require Import List ZArith Reals Bool Arith Lia Lra Permutation.
From Verif Require Import Base Cplx ExactUtilsModel ExactUtilsSpec ExactUtilsProofs IsingProofs AutoregressiveModel AutoregressiveSpec
  AutoregressiveProofs ObservableModel ObservableSpec ObservableProofs ExactModel ExactSpec ExactProofs.
Import ListNotations.
Local Open Scope R_scope.

Definition partial (p : list R) (i : nat) : R := Rsum (fun x => x) (firstn i p).

Lemma Rsum_nonneg_list (l : list R) : Forall (fun x => 0 <= x) l -> 0 <= Rsum (fun x => x) l.
Proof. induction 1 as [|x l Hx F IH]; [unfold Rsum; simpl; lra|]. rewrite Rsum_cons. lra. Qed.

(** [k] entries of the normalised cumulative sums are at most [u] iff u lies between two neighbours. *)
Lemma cumsum_filter u total : 0 < total -> forall p acc i, Forall (fun x => 0 <= x) p -> (i < length p)%nat -> acc / total <= u ->
  (length (filter (fun c => if Rle_dec c u then true else false) (map (fun c => c / total) (cumsum acc p))) = i <->
   (acc + partial p i) / total <= u < (acc + partial p (S i)) / total).
Proof.
  intros Ht. induction p as [|x p IH]; intros acc i F Hi Ha; [simpl in Hi; lia|].
  inversion F as [|? ? Fx Fp]; subst. cbn [cumsum map filter].
  assert (Hpos : forall j, 0 <= partial p j).
  { intros j. apply Rsum_nonneg_list. apply Forall_forall. intros y Hy. rewrite Forall_forall in Fp. apply Fp.
    rewrite <- (firstn_skipn j p). apply in_or_app. now left. }
  assert (Hdiv : forall a b, a <= b -> a / total <= b / total).
  { intros a b Hab. unfold Rdiv. apply Rmult_le_compat_r; [|exact Hab]. apply Rlt_le, Rinv_0_lt_compat, Ht. }
  destruct i as [|i].
  - unfold partial. cbn [firstn]. rewrite !Rsum_cons. change (Rsum (fun x => x) []) with 0. rewrite Rplus_0_r, Rplus_0_r.
    destruct (Rle_dec ((acc + x) / total) u) as [L|L]; cbn [length]; split; intros Hx.
    + discriminate.
    + lra.
    + lra.
    + clear IH. assert (N : forall q a, Forall (fun y => 0 <= y) q -> u < a / total ->
          filter (fun c => if Rle_dec c u then true else false) (map (fun c => c / total) (cumsum a q)) = []).
      { induction q as [|y q IHq]; intros a Fq Hlt; [reflexivity|]. inversion Fq; subst. cbn [cumsum map filter].
        pose proof (Hdiv a (a + y) ltac:(lra)). destruct (Rle_dec ((a + y) / total) u); [lra|]. apply IHq; auto. lra. }
      rewrite N; auto. lra.
  - unfold partial. cbn [firstn length] in *. rewrite !Rsum_cons. fold (partial p i). fold (partial p (S i)).
    rewrite <- !Rplus_assoc.
    destruct (Rle_dec ((acc + x) / total) u) as [L|L]; cbn [length].
    + assert (Hi' : (i < length p)%nat) by lia. specialize (IH (acc + x) i Fp Hi' L). cbn [length].
      change (firstn (S i) p) with (firstn (S i) p). split; intros Hx.
      * apply IH. lia.
      * f_equal. now apply IH.
    + split; intros Hx.
      * exfalso. assert (N : forall q a, Forall (fun y => 0 <= y) q -> u < a / total ->
          filter (fun c => if Rle_dec c u then true else false) (map (fun c => c / total) (cumsum a q)) = []).
        { clear - Hdiv. induction q as [|y q IHq]; intros a Fq Hlt; [reflexivity|]. inversion Fq; subst. cbn [cumsum map filter].
          pose proof (Hdiv a (a + y) ltac:(lra)). destruct (Rle_dec ((a + y) / total) u); [lra|]. apply IHq; auto. lra. }
        rewrite N in Hx; auto; [discriminate|lra].
      * pose proof (Hdiv (acc + x) (acc + x + partial p i) ltac:(pose proof (Hpos i); lra)). lra.
Qed.

Lemma choice_index_interval p u i : Forall (fun x => 0 <= x) p -> 0 < Rsum (fun x => x) p -> (i < length p)%nat -> 0 <= u ->
  (choice_index p u = i <-> partial p i / Rsum (fun x => x) p <= u < partial p (S i) / Rsum (fun x => x) p).
Proof.
  intros F Ht Hi Hu. unfold choice_index. cbv zeta.
  rewrite (cumsum_filter u _ Ht p 0 i F Hi) by (unfold Rdiv; lra). now rewrite !Rplus_0_l.
Qed.

Lemma partial_S p i : (i < length p)%nat -> partial p (S i) = partial p i + nth i p 0.
Proof.
  revert i. induction p as [|x p IH]; intros i Hi; [simpl in Hi; lia|]. destruct i as [|i].
  - unfold partial. cbn [firstn nth]. rewrite Rsum_cons. change (Rsum (fun x => x) []) with 0. ring.
  - unfold partial in *. cbn [firstn nth length] in *. rewrite !Rsum_cons, <- Rplus_assoc_reverse || rewrite !Rsum_cons.
    assert (Hi' : (i < length p)%nat) by lia. specialize (IH i Hi'). cbn [firstn] in IH. rewrite IH. ring.
Qed.
Lemma partial_le p i : Forall (fun x => 0 <= x) p -> 0 <= partial p i <= Rsum (fun x => x) p.
Proof.
  intros F. assert (F' : Forall (fun x => 0 <= x) (firstn i p ++ skipn i p)) by now rewrite firstn_skipn.
  apply Forall_app in F'. destruct F' as [F1 F2]. unfold partial. split; [now apply Rsum_nonneg_list|].
  rewrite <- (firstn_skipn i p) at 2. rewrite Rsum_app. pose proof (Rsum_nonneg_list _ F2). lra.
Qed.
Lemma partial_all p i : (length p <= i)%nat -> partial p i = Rsum (fun x => x) p.
Proof. intros L. unfold partial. now rewrite firstn_all2. Qed.

Lemma choice_index_lt p u : Forall (fun x => 0 <= x) p -> 0 < Rsum (fun x => x) p -> 0 <= u < 1 -> (choice_index p u < length p)%nat.
Proof.
  intros F Ht Hu.
  assert (Hex : exists i, (i < length p)%nat /\ partial p i / Rsum (fun x => x) p <= u < partial p (S i) / Rsum (fun x => x) p).
  { set (T := Rsum (fun x => x) p) in *.
    assert (G : forall k, (k <= length p)%nat -> u < partial p k / T -> exists i, (i < k)%nat /\ partial p i / T <= u < partial p (S i) / T).
    { induction k as [|k IH]; intros Hk Hlt.
      - unfold partial in Hlt. cbn [firstn] in Hlt. change (Rsum (fun x => x) []) with 0 in Hlt. unfold Rdiv in Hlt. lra.
      - destruct (Rle_dec (partial p k / T) u) as [L|L].
        + exists k. split; [lia|]. split; assumption.
        + destruct IH as (i & Hi & B); [lia|lra|]. exists i. split; [lia|exact B]. }
    destruct (G (length p) (le_n _)) as (i & Hi & B).
    { rewrite partial_all by lia. fold T. unfold Rdiv. rewrite Rinv_r by lra. lra. }
    exists i. now split. }
  destruct Hex as (i & Hi & B). apply (choice_index_interval p u i F Ht Hi) in B; [lia|lra].
Qed.

Lemma np_choice_ok n p us : length p = n -> Forall (fun x => 0 <= x) p -> Rabs (Rsum (fun x => x) p - 1) <= choice_tolerance ->
  np_choice n p us = Ok (map (choice_index p) us).
Proof.
  intros L F T. unfold np_choice. rewrite L, Nat.eqb_refl. cbn [negb].
  assert (E : forallb (fun x => if Rle_dec 0 x then true else false) p = true).
  { apply forallb_forall. intros x Hx. rewrite Forall_forall in F. specialize (F x Hx). destruct (Rle_dec 0 x); [reflexivity|lra]. }
  rewrite E. destruct (Rle_dec (Rabs (Rsum (fun x => x) p - 1)) choice_tolerance); [reflexivity|contradiction].
Qed.

Lemma decode_basis n l : (forall i, In i l -> (i < 2 ^ n)%nat) ->
  decimal_array_to_binary_array (map Z.of_nat l) n false None = map (fun i => nth i (basis n) []) l.
Proof.
  intros Hl. rewrite dab_none, map_map. apply map_ext_in. intros i Hi. specialize (Hl i Hi). unfold basis.
  rewrite (nth_map_in _ _ _ [] 0%nat) by now rewrite range_length. unfold range. rewrite seq_nth by exact Hl. reflexivity.
Qed.

(** Drawing from weights indexed by the basis. *)
Lemma draw_basis n (w : list R) us : length w = (2 ^ n)%nat -> Forall (fun x => 0 <= x) w -> 0 < Rsum (fun x => x) w ->
  Forall (fun u => 0 <= u < 1) us ->
  let batch := map (fun i => nth i (basis n) []) (map (choice_index w) us) in
  length batch = length us /\ (forall s, In s batch -> In s (spin_configs n)) /\
  forall s i, nth_error (basis n) i = Some s ->
    0 <= partial w i / Rsum (fun x => x) w /\ partial w i / Rsum (fun x => x) w + nth i w 0 / Rsum (fun x => x) w <= 1 /\
    forall k u, nth_error us k = Some u ->
      (nth_error batch k = Some s <-> partial w i / Rsum (fun x => x) w <= u < partial w i / Rsum (fun x => x) w + nth i w 0 / Rsum (fun x => x) w).
Proof.
  intros L F T Hus batch. split; [|split].
  - unfold batch. now rewrite !map_length.
  - intros s Hs. unfold batch in Hs. rewrite map_map in Hs. apply in_map_iff in Hs. destruct Hs as (u & <- & Hu).
    rewrite Forall_forall in Hus. apply basis_in, nth_In. rewrite basis_length, <- L. apply choice_index_lt; auto.
  - intros s i Hi. assert (Hlt : (i < length w)%nat).
    { rewrite L, <- basis_length. apply nth_error_Some. now rewrite Hi. }
    set (T' := Rsum (fun x => x) w) in *.
    assert (Eadd : partial w i / T' + nth i w 0 / T' = partial w (S i) / T').
    { rewrite partial_S by exact Hlt. unfold Rdiv. ring. }
    rewrite Eadd. split; [|split].
    + unfold Rdiv. apply Rmult_le_pos; [apply partial_le, F|]. apply Rlt_le, Rinv_0_lt_compat, T.
    + pose proof (partial_le w (S i) F) as [_ Hp]. fold T' in Hp. apply (Rmult_le_reg_r T'); [exact T|].
      unfold Rdiv. rewrite Rmult_assoc, Rinv_l by lra. lra.
    + intros k u Hk. assert (Hu : 0 <= u < 1).
      { rewrite Forall_forall in Hus. apply Hus. eapply nth_error_In, Hk. }
      pose proof (choice_index_interval w u i F T Hlt (proj1 Hu)) as CI. fold T' in CI. rewrite <- CI. clear CI.
      unfold batch. rewrite map_map, (map_nth_error _ k us Hk). split.
      * intros E. injection E as E.
        pose proof (choice_index_lt w u F T Hu) as Hc.
        apply (proj1 (NoDup_nth (basis n) []) (basis_NoDup n)); rewrite ?basis_length, <- ?L; auto.
        rewrite E. symmetry. now apply nth_error_nth.
      * intros ->. f_equal. now apply nth_error_nth.
Qed.

Lemma Rsum_probability n lp : Rsum (fun x => x) (map (probability n lp) (basis n)) = 1.
Proof.
  rewrite Rsum_map. unfold probability, Rdiv. rewrite (Rsum_scal_r (/ norm2 n lp) (fun s => born (lp s))).
  rewrite <- norm2_basis. apply Rinv_r, Rgt_not_eq, norm2_pos.
Qed.
Lemma probability_nonneg n lp s : 0 <= probability n lp s.
Proof.
  unfold probability, Rdiv, born. apply Rmult_le_pos; [apply Cnorm2_nonneg|]. apply Rlt_le, Rinv_0_lt_compat, norm2_pos.
Qed.

Lemma basis_position n s : In s (spin_configs n) -> exists i, nth_error (basis n) i = Some s.
Proof. intros H. apply basis_in, In_nth_error in H. exact H. Qed.

Lemma exact_sampler_ok n H lp e e' us : good_exact n H e -> machine_updated lp e = Ok e' -> Forall (fun u => 0 <= u < 1) us ->
  exists batch, exact_sampler_next e' us = Ok batch /\ length batch = length us /\ (forall s, In s batch -> In s (spin_configs n)) /\
  batch = map (fun i => nth i (basis n) []) (map (choice_index (map (probability n lp) (basis n))) us).
Proof.
  intros G E Hus. destruct (machine_updated_ok n H lp e G) as (e1 & E1 & G1 & _ & _ & P1 & _).
  assert (e1 = e') by congruence. subst e1. unfold exact_sampler_next. rewrite P1, (ge_n _ _ _ G1).
  set (w := map (probability n lp) (basis n)).
  assert (Fw : Forall (fun x => 0 <= x) w).
  { apply Forall_forall. intros x Hx. apply in_map_iff in Hx. destruct Hx as (s & <- & _). apply probability_nonneg. }
  assert (Sw : Rsum (fun x => x) w = 1) by apply Rsum_probability.
  assert (Lw : length w = (2 ^ n)%nat) by (unfold w; rewrite map_length; apply basis_length).
  rewrite np_choice_ok; auto.
  2: { rewrite Sw. replace (1 - 1) with 0 by ring. rewrite Rabs_R0. unfold choice_tolerance. apply Rlt_le, Rinv_0_lt_compat, pow_lt. lra. }
  cbn [bind]. rewrite decode_basis.
  2: { intros i Hi. apply in_map_iff in Hi. destruct Hi as (u & <- & Hu). rewrite <- Lw. apply choice_index_lt; auto; [lra|].
       rewrite Forall_forall in Hus. now apply Hus. }
  eexists. split; [reflexivity|].
  destruct (draw_basis n w us Lw Fw ltac:(lra) Hus) as (D1 & D2 & _). split; [exact D1|]. split; [exact D2|reflexivity].
Qed.

(** * The sampler that is given a vector *)
Lemma wave_sampler_weights (v : list C) : map exp (map (fun z => Re z * 2) v) = map born v.
Proof. rewrite map_map. apply map_ext. intros z. unfold born. rewrite Cnorm2_exp. f_equal. ring. Qed.

Lemma wave_sampler_ok n (v : list C) us : length v = (2 ^ n)%nat -> Rabs (Rsum born v - 1) <= choice_tolerance ->
  Forall (fun u => 0 <= u < 1) us ->
  wave_function_sampler_next v n us = Ok (map (fun i => nth i (basis n) []) (map (choice_index (map born v)) us)).
Proof.
  intros L T Hus. unfold wave_function_sampler_next. cbv zeta. rewrite wave_sampler_weights.
  assert (Fw : Forall (fun x => 0 <= x) (map born v)).
  { apply Forall_forall. intros x Hx. apply in_map_iff in Hx. destruct Hx as (z & <- & _). apply Cnorm2_nonneg. }
  assert (Sw : Rsum (fun x => x) (map born v) = Rsum born v) by now rewrite Rsum_map.
  assert (Tp : choice_tolerance < 1).
  { unfold choice_tolerance. apply (Rmult_lt_reg_l (2 ^ 26)); [apply pow_lt; lra|]. rewrite Rinv_r by (apply pow_nonzero; lra). simpl. lra. }
  assert (Pw : 0 < Rsum born v).
  { revert T. unfold Rabs. destruct (Rcase_abs (Rsum born v - 1)); lra. }
  rewrite np_choice_ok; auto; [|now rewrite Sw]. cbn [bind].
  rewrite !map_length, L, Nat.log2_pow2 by lia. rewrite Nat.eqb_refl. f_equal. apply decode_basis.
  intros i Hi. apply in_map_iff in Hi. destruct Hi as (u & <- & Hu). rewrite <- L, <- (map_length born v).
  apply choice_index_lt; auto; [now rewrite Sw|]. rewrite Forall_forall in Hus. now apply Hus.
Qed.

Lemma wave_sampler_rejects n (v : list C) us : choice_tolerance < Rabs (Rsum born v - 1) -> wave_function_sampler_next v n us = Err ValueError.
Proof.
  intros T. unfold wave_function_sampler_next. cbv zeta. rewrite wave_sampler_weights.
  unfold np_choice. rewrite Nat.eqb_refl. cbn [negb].
  assert (E : forallb (fun x => if Rle_dec 0 x then true else false) (map born v) = true).
  { apply forallb_forall. intros x Hx. apply in_map_iff in Hx. destruct Hx as (z & <- & _).
    pose proof (Cnorm2_nonneg (Cexp z)) as Q. fold (born z) in Q. destruct (Rle_dec 0 (born z)); [reflexivity|contradiction]. }
  rewrite E, Rsum_map. destruct (Rle_dec (Rabs (Rsum (fun a => born a) v - 1)) choice_tolerance) as [Q|]; [|reflexivity].
  change (fun a => born a) with born in Q. lra.
Qed.

Lemma wave_sampler_wrong_size n m (v : list C) us : length v = (2 ^ m)%nat -> m <> n -> us <> [] ->
  Rabs (Rsum born v - 1) <= choice_tolerance -> Forall (fun u => 0 <= u < 1) us ->
  wave_function_sampler_next v n us = Err ShapeError.
Proof.
  intros L Hn Hne T Hus. pose proof (wave_sampler_ok m v us L T Hus) as W. unfold wave_function_sampler_next in *. cbv zeta in *.
  destruct (np_choice _ _ us) as [d|]; [|discriminate W]. cbn [bind] in *. rewrite !map_length, L, Nat.log2_pow2 in * by lia.
  rewrite (proj2 (Nat.eqb_neq _ _)); [reflexivity|]. intros E. apply Nat.mul_cancel_l in E; [now apply Hn|].
  destruct us; [contradiction|discriminate].
Qed.

Lemma basis_index n s : In s (spin_configs n) -> nth_error (basis n) (Z.to_nat (positional_value s)) = Some s.
Proof.
  intros Hs. rewrite <- b2d_positional. rewrite <- (basis_nth n s Hs) at 2. apply nth_error_nth'.
  apply spins_spin_string in Hs. destruct Hs as [L F]. subst n. pose proof (b2d_range s) as B. rewrite <- pow2_Z in B.
  rewrite basis_length. lia.
Qed.
