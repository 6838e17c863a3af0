(** Proofs for weight normalisation. *)
From Coq Require Import List ZArith Arith Bool Reals Lia Lra.
From Verif Require Import Base Cplx OrderingModel OrderingSpec OrderingProofs TensorModel MachinesProofs RbmProofs
  WeightNormModel WeightNormSpec.
Import ListNotations.
Local Open Scope R_scope.

Lemma Rsum_filter {A} (f : A -> R) p l : Rsum f (filter p l) = Rsum (fun a => if p a then f a else 0) l.
Proof. induction l as [|a l IH]; [reflexivity|]. cbn [filter]. rewrite (Rsum_cons (fun a => if p a then f a else 0)). destruct (p a); [rewrite Rsum_cons|]; rewrite IH; ring. Qed.

Lemma Rsum_pick (f : nat -> R) n : forall s j, (s <= j < s + n)%nat -> Rsum (fun i => if (j =? i)%nat then f i else 0) (seq s n) = f j.
Proof.
  induction n as [|n IH]; intros s j H; [lia|]. cbn [seq]. rewrite Rsum_cons. destruct (Nat.eqb_spec j s) as [->|N].
  - rewrite (Rsum_ext _ (fun _ => 0)), Rsum_zero; [ring|]. intros a Ha. apply in_seq in Ha. destruct (Nat.eqb_spec s a); [lia|reflexivity].
  - rewrite IH by lia. ring.
Qed.

Lemma raster_snoc sh n : raster (sh ++ [n]) = flat_map (fun l => map (fun j => l ++ [j]) (range n)) (raster sh).
Proof.
  induction sh as [|m sh IH]; cbn [app raster].
  - cbn [flat_map]. rewrite app_nil_r. induction (range n) as [|i l IHl]; [reflexivity|]. cbn in *. now rewrite IHl.
  - rewrite IH. rewrite !flat_map_concat_map, !concat_map, !map_map.
    induction (range m) as [|i r IHr]; [reflexivity|]. cbn [map concat]. rewrite concat_app. f_equal; [|exact IHr].
    rewrite concat_map, !map_map. f_equal. apply map_ext. intros l. rewrite !map_map. reflexivity.
Qed.

Lemma nth_snoc_last (l : list nat) j : nth (length l) (l ++ [j]) 0%nat = j.
Proof. rewrite app_nth2, Nat.sub_diag by lia. reflexivity. Qed.

Lemma existsb_range a r : existsb (Nat.eqb a) (range r) = (a <? r)%nat.
Proof.
  destruct (Nat.ltb_spec a r).
  - apply existsb_exists. exists a. split; [apply in_seq; lia|apply Nat.eqb_refl].
  - destruct (existsb (Nat.eqb a) (range r)) eqn:E; [|reflexivity]. apply existsb_exists in E. destruct E as (b & B & E).
    apply in_seq in B. apply Nat.eqb_eq in E. lia.
Qed.

Lemma same_group_channel l l' j j' : length l = length l' -> same_group (range (length l)) (l ++ [j]) (l' ++ [j']) = (j =? j')%nat.
Proof.
  intros L. unfold same_group. rewrite app_length, Nat.add_1_r. unfold range. rewrite seq_S, forallb_app. cbn [forallb].
  change (seq 0 (length l)) with (range (length l)). change (0 + length l)%nat with (length l). rewrite (existsb_range (length l)), Nat.ltb_irrefl, nth_snoc_last.
  rewrite L, nth_snoc_last, andb_true_r. cbn [orb].
  replace (forallb _ _) with true; [reflexivity|]. symmetry. apply forallb_forall. intros a Ha. apply in_seq in Ha. rewrite existsb_range.
  destruct (Nat.ltb_spec a (length l')); [reflexivity|lia].
Qed.
Lemma same_group_all l l' : same_group (range (length l)) l l' = true.
Proof.
  unfold same_group. apply forallb_forall. intros a Ha. apply in_seq in Ha. rewrite existsb_range.
  destruct (Nat.ltb_spec a (length l)); [reflexivity|lia].
Qed.

Lemma in_shape_len sh l : in_shape sh l -> length l = length sh.
Proof. induction 1; cbn; congruence. Qed.

Lemma in_shape_snoc sh n l : in_shape (sh ++ [n]) l -> exists l0 j, l = l0 ++ [j] /\ in_shape sh l0 /\ (j < n)%nat.
Proof.
  revert l. induction sh as [|m sh IH]; intros l H; inversion H as [|i ? l' ? Hi T]; subst.
  - inversion T; subst. exists [], i. split; [reflexivity|]. split; [constructor|assumption].
  - destruct (IH _ T) as (l0 & j & -> & I & J). exists (i :: l0), j. split; [reflexivity|]. split; [now constructor|assumption].
Qed.

Lemma square_sum_channel k sh n l j : tshape k = sh ++ [n] -> in_shape sh l -> (j < n)%nat ->
  square_sum (range (length sh)) k (l ++ [j]) = Rsum (fun a => a * a) (column k sh j).
Proof.
  intros S I J. unfold square_sum, column. rewrite S, Rsum_filter, raster_snoc, Rsum_flat_map, Rsum_map. apply Rsum_ext. intros l' Hl'.
  apply in_raster in Hl'. rewrite Rsum_map. rewrite <- (in_shape_len _ _ I).
  rewrite (Rsum_ext _ (fun j' => if (j =? j')%nat then tval k (l' ++ [j']) * tval k (l' ++ [j']) else 0)).
  - exact (Rsum_pick (fun j' => tval k (l' ++ [j']) * tval k (l' ++ [j'])) n 0 j ltac:(lia)).
  - intros j' _. rewrite same_group_channel; [reflexivity|]. now rewrite (in_shape_len _ _ I), (in_shape_len _ _ Hl').
Qed.
Lemma square_sum_all k l : in_shape (tshape k) l -> square_sum (range (length (tshape k))) k l = Rsum (fun a => a * a) (entries k).
Proof.
  intros I. unfold square_sum, entries. rewrite Rsum_filter, Rsum_map. apply Rsum_ext. intros l' _. rewrite <- (in_shape_len _ _ I), same_group_all. reflexivity.
Qed.

Lemma volume_snoc sh n : volume (sh ++ [n]) = (volume sh * n)%nat.
Proof. induction sh as [|m sh IH]; cbn [app volume fold_right]; [lia|]. fold (volume sh). fold (volume (sh ++ [n])). rewrite IH. lia. Qed.

Lemma Rsum_range_raster sh (f : nat -> R) : Rsum f (range (volume sh)) = Rsum (fun l => f (row_major sh l)) (raster sh).
Proof. rewrite <- raster_row_major. apply Rsum_map. Qed.

Lemma unravel_row_major sh l : in_shape sh l -> unravel sh (row_major sh l) = l.
Proof. intros I. rewrite unravel_location. now apply location_row_major. Qed.

Definition as_parameter (exponential : bool) (x : R) : R := if exponential then ln (x + / 10 ^ 10) else x.

Lemma copy_norma_channel k sh n e : tshape k = sh ++ [n] -> (0 < n)%nat ->
  copy_norma_initializer k e n = Ok (map (fun j => as_parameter e (euclid (column k sh j))) (range n)).
Proof.
  intros S N. unfold copy_norma_initializer. destruct (Nat.eqb_spec n 0); [lia|]. rewrite S, volume_snoc, Nat.mod_mul, Nat.div_mul by lia.
  cbn [negb Nat.eqb].
  assert (E : map (fun j => sqrt (Rsum (fun r => tval (reshape [volume sh; n] k) [r; j] * tval (reshape [volume sh; n] k) [r; j]) (range (volume sh)))) (range n)
              = map (fun j => euclid (column k sh j)) (range n)).
  { apply map_ext_in. intros j Hj. apply in_seq in Hj. unfold euclid, column. f_equal. rewrite Rsum_range_raster, Rsum_map. apply Rsum_ext. intros l Hl.
    apply in_raster in Hl. cbn [reshape tval]. rewrite S. unfold flat_loop; fold flat_loop.
    replace ((0 * volume sh + row_major sh l) * n + j)%nat with (row_major (sh ++ [n]) (l ++ [j])).
    - rewrite unravel_row_major; [reflexivity|]. apply in_shape_unit; [exact Hl|lia].
    - rewrite row_major_unit by (auto; lia). lia. }
  destruct e; rewrite E; [rewrite map_map|]; reflexivity.
Qed.

Lemma copy_norma_all k e : copy_norma_initializer k e 1 = Ok [as_parameter e (euclid (entries k))].
Proof.
  unfold copy_norma_initializer. cbn [Nat.eqb]. rewrite Nat.mod_1_r, Nat.div_1_r. cbn [negb Nat.eqb].
  assert (E : map (fun j => sqrt (Rsum (fun r => tval (reshape [volume (tshape k); 1%nat] k) [r; j] * tval (reshape [volume (tshape k); 1%nat] k) [r; j]) (range (volume (tshape k))))) (range 1)
              = [euclid (entries k)]).
  { cbn [range seq map]. f_equal. unfold euclid, entries. f_equal. change (seq 0 (volume (tshape k))) with (range (volume (tshape k))).
    rewrite Rsum_range_raster, Rsum_map. apply Rsum_ext. intros l Hl.
    apply in_raster in Hl. cbn [reshape tval]. unfold flat_loop; fold flat_loop.
    replace ((0 * volume (tshape k) + row_major (tshape k) l) * 1 + 0)%nat with (row_major (tshape k) l) by lia.
    now rewrite unravel_row_major. }
  destruct e; rewrite E; reflexivity.
Qed.

(** * The weights *)

Lemma last_snoc (l : list nat) j : last (l ++ [j]) 0%nat = j.
Proof. apply last_last. Qed.

Lemma l2_epsilon_pos : 0 < l2_epsilon. Proof. unfold l2_epsilon. apply Rinv_0_lt_compat. apply pow_lt. lra. Qed.
Lemma sqrt_epsilon : sqrt l2_epsilon = / 10 ^ 6.
Proof.
  unfold l2_epsilon. replace (/ 10 ^ 12) with ((/ 10 ^ 6) * (/ 10 ^ 6)) by (field). apply sqrt_square. left. apply Rinv_0_lt_compat. apply pow_lt. lra.
Qed.
Lemma sumsq_nonneg x : 0 <= Rsum (fun a => a * a) x.
Proof. apply Rsum_nonneg. intros a _. nra. Qed.
Lemma euclid_nonneg x : 0 <= euclid x. Proof. apply sqrt_pos. Qed.

Lemma sqrt_max s : 0 <= s -> sqrt (Rmax s l2_epsilon) = Rmax (sqrt s) (/ 10 ^ 6).
Proof.
  intros H. rewrite <- sqrt_epsilon. pose proof l2_epsilon_pos. unfold Rmax. destruct (Rle_dec s l2_epsilon) as [A|A], (Rle_dec (sqrt s) (sqrt l2_epsilon)) as [B|B]; try reflexivity.
  - exfalso. apply B. apply sqrt_le_1; lra.
  - exfalso. apply A. apply sqrt_le_0; lra.
Qed.

(** The length every group is divided by. *)
Definition divisor (x : list R) : R := Rmax (euclid x) (/ 10 ^ 6).
Lemma divisor_pos x : 0 < divisor x.
Proof. unfold divisor. apply Rlt_le_trans with (/ 10 ^ 6); [apply Rinv_0_lt_compat, pow_lt; lra|apply Rmax_r]. Qed.
Lemma divisor_big x : / 10 ^ 6 <= euclid x -> divisor x = euclid x.
Proof. intros H. now apply Rmax_left. Qed.
Lemma divisor_small x : euclid x <= / 10 ^ 6 -> divisor x = / 10 ^ 6.
Proof. intros H. now apply Rmax_right. Qed.

Lemma weights_channel w sh n : tshape (v w) = sh ++ [n] -> length (g w) = n -> kernel_norm_axes w = range (length sh) ->
  exists y, compute_weights (Some w) = Ok y /\ tshape y = sh ++ [n] /\ forall l j, in_shape sh l -> (j < n)%nat ->
    tval y (l ++ [j]) = tval (v w) (l ++ [j]) / divisor (column (v w) sh j) * (if exponential_norm w then exp (nth j (g w) 0) else nth j (g w) 0).
Proof.
  intros S L A. eexists. split; [reflexivity|]. split; [exact S|]. intros l j I J. cbn [times_vector l2_normalize tval]. rewrite A, (square_sum_channel _ _ _ _ _ S I J), last_snoc.
  rewrite sqrt_max by apply sumsq_nonneg. change (Rmax _ (/ 10 ^ 6)) with (divisor (column (v w) sh j)). unfold Rdiv. f_equal.
  replace (if (length _ =? 1)%nat then 0%nat else j) with j.
  - destruct (exponential_norm w); [|reflexivity]. rewrite (nth_indep _ 0 (exp 0)) by (rewrite map_length; lia). now rewrite map_nth.
  - destruct (exponential_norm w); rewrite ?map_length, L; destruct (Nat.eqb_spec n 1); lia.
Qed.
Lemma weights_all w x : g w = [x] -> kernel_norm_axes w = range (length (tshape (v w))) ->
  exists y, compute_weights (Some w) = Ok y /\ tshape y = tshape (v w) /\ forall l, in_shape (tshape (v w)) l ->
    tval y l = tval (v w) l / divisor (entries (v w)) * (if exponential_norm w then exp x else x).
Proof.
  intros G A. eexists. split; [reflexivity|]. split; [reflexivity|]. intros l I. cbn [times_vector l2_normalize tval]. rewrite A, (square_sum_all _ _ I), G.
  rewrite sqrt_max by apply sumsq_nonneg. change (Rmax _ (/ 10 ^ 6)) with (divisor (entries (v w))). unfold Rdiv. f_equal.
  destruct (exponential_norm w); reflexivity.
Qed.

Lemma build_channel k sh n e : tshape k = sh ++ [n] -> (0 < n)%nat ->
  build true e {| built := false; kernel := Some k |} = Ok (Some {| normalize_per_output_channel := true; exponential_norm := e;
     kernel_norm_axes := range (length sh); v := k; g := map (fun j => as_parameter e (euclid (column k sh j))) (range n) |}).
Proof.
  intros S N. unfold build. cbn [built kernel]. rewrite S, app_length, Nat.add_1_r. cbn [bind fst snd]. rewrite nth_snoc_last.
  rewrite (copy_norma_channel _ _ _ _ S N). reflexivity.
Qed.
Lemma build_all k e :
  build false e {| built := false; kernel := Some k |} = Ok (Some {| normalize_per_output_channel := false; exponential_norm := e;
     kernel_norm_axes := range (length (tshape k)); v := k; g := [as_parameter e (euclid (entries k))] |}).
Proof. unfold build. cbn [built kernel bind fst snd]. rewrite copy_norma_all. reflexivity. Qed.

Lemma euclid_scale c x : euclid (map (Rmult c) x) = Rabs c * euclid x.
Proof.
  unfold euclid. rewrite Rsum_map, (Rsum_ext _ (fun a => (c * c) * (a * a))) by (intros; ring). rewrite Rsum_scal.
  rewrite sqrt_mult by (nra || apply sumsq_nonneg). f_equal. apply sqrt_Rsqr_abs.
Qed.
Lemma exp_parameter (e : bool) x : 0 <= x -> (if e then exp (as_parameter e x) else as_parameter e x) = if e then x + / 10 ^ 10 else x.
Proof. intros H. destruct e; [|reflexivity]. cbn [as_parameter]. apply exp_ln. assert (0 < / 10 ^ 10) by (apply Rinv_0_lt_compat, pow_lt; lra). lra. Qed.

Lemma initial_channel k sh n (e : bool) : tshape k = sh ++ [n] -> (0 < n)%nat ->
  exists y, initial_kernel true e {| built := false; kernel := Some k |} = Ok y /\ tshape y = sh ++ [n] /\
    forall l j, in_shape sh l -> (j < n)%nat ->
    tval y (l ++ [j]) = tval k (l ++ [j]) / divisor (column k sh j) * (if e then euclid (column k sh j) + / 10 ^ 10 else euclid (column k sh j)).
Proof.
  intros S N. unfold initial_kernel. rewrite (build_channel _ _ _ _ S N). cbn [bind].
  edestruct weights_channel as (y & E & T & V); [| | |rewrite E]; cbn [v g kernel_norm_axes] in *.
  - exact S.
  - now rewrite map_length, range_length.
  - reflexivity.
  - exists y. split; [reflexivity|]. split; [exact T|]. intros l j I J. rewrite (V _ _ I J). f_equal. cbn [exponential_norm g].
    rewrite (nth_indep _ 0 (as_parameter e (euclid (column k sh 0)))) by (rewrite map_length, range_length; lia).
    rewrite (map_nth (fun j => as_parameter e (euclid (column k sh j)))). unfold range. rewrite seq_nth by lia. cbn [Nat.add].
    apply exp_parameter. apply euclid_nonneg.
Qed.
Lemma initial_all k (e : bool) :
  exists y, initial_kernel false e {| built := false; kernel := Some k |} = Ok y /\ tshape y = tshape k /\
    forall l, in_shape (tshape k) l ->
    tval y l = tval k l / divisor (entries k) * (if e then euclid (entries k) + / 10 ^ 10 else euclid (entries k)).
Proof.
  unfold initial_kernel. rewrite build_all. cbn [bind].
  edestruct weights_all as (y & E & T & V); [| |rewrite E]; cbn [v g kernel_norm_axes] in *.
  - reflexivity.
  - reflexivity.
  - exists y. split; [reflexivity|]. split; [exact T|]. intros l I. rewrite (V _ I). f_equal. cbn [exponential_norm g].
    apply exp_parameter. apply euclid_nonneg.
Qed.
Lemma column_scale c k y sh j : (forall l, in_shape sh l -> tval y (l ++ [j]) = c * tval k (l ++ [j])) -> column y sh j = map (Rmult c) (column k sh j).
Proof. intros H. unfold column. rewrite map_map. apply map_ext_in. intros l Hl. apply in_raster in Hl. now apply H. Qed.
Lemma entries_scale c k y : tshape y = tshape k -> (forall l, in_shape (tshape k) l -> tval y l = c * tval k l) -> entries y = map (Rmult c) (entries k).
Proof. intros S H. unfold entries. rewrite map_map, S. apply map_ext_in. intros l Hl. apply in_raster in Hl. now apply H. Qed.
Lemma micro_pos : 0 < / 10 ^ 6. Proof. apply Rinv_0_lt_compat, pow_lt; lra. Qed.
Lemma build_axes per e k sh n w : tshape k = sh ++ [n] -> (0 < n)%nat -> build per e {| built := false; kernel := Some k |} = Ok (Some w) ->
  kernel_norm_axes w = (if per then range (length sh) else range (length (sh ++ [n]))) /\ exponential_norm w = e.
Proof.
  intros S N. destruct per; [rewrite (build_channel _ _ _ _ S N)|rewrite build_all]; intros [= <-]; cbn; rewrite ?S; auto.
Qed.
