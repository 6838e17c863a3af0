(** C59: weight normalisation. *)
From Coq Require Import List ZArith Arith Bool Reals Lia Lra.
From Verif Require Import Base Cplx OrderingModel OrderingSpec OrderingProofs TensorModel WeightNormModel WeightNormSpec
  WeightNormProofs.
Import ListNotations.
Local Open Scope R_scope.

(** A convolution kernel of two positions, one input channel and two filters with columns (3, 4) and (5, 12). *)
Definition example_kernel : tensor R :=
  {| tshape := [2; 1; 2]%nat; tval := fun l => match l with [O; _; O] => 3 | [_; _; O] => 4 | [O; _; _] => 5 | _ => 12 end |}.
Example C59_columns : column example_kernel [2; 1]%nat 0 = [3; 4] /\ column example_kernel [2; 1]%nat 1 = [5; 12].
Proof. split; reflexivity. Qed.
Lemma example_lengths j : (j < 2)%nat -> / 10 ^ 6 <= euclid (column example_kernel [2; 1]%nat j).
Proof.
  intros J. assert (H : 1 <= euclid (column example_kernel [2; 1]%nat j)).
  { rewrite <- sqrt_1. apply sqrt_le_1_alt. destruct j as [|[|]]; [| |lia]; [rewrite (proj1 C59_columns)|rewrite (proj2 C59_columns)];
      repeat rewrite Rsum_cons; rewrite Rsum_nil; lra. }
  apply Rle_trans with 1; [|exact H]. rewrite <- Rinv_1. apply Rinv_le_contravar; [lra|]. apply pow_R1_Rle. lra.
Qed.

(** Every kernel whose output columns have length at least 10^-6: the normalised kernel of the freshly wrapped layer is
    the kernel. *)
Theorem C59_identity k sh n : tshape k = sh ++ [n] -> (0 < n)%nat -> (forall j, (j < n)%nat -> / 10 ^ 6 <= euclid (column k sh j)) ->
  exists y, initial_kernel true false {| built := false; kernel := Some k |} = Ok y /\ same_entries k y.
Proof.
  intros S N B. destruct (initial_channel k sh n false S N) as (y & E & T & V). exists y. split; [exact E|]. split; [congruence|].
  intros l Hl. rewrite S in Hl. destruct (in_shape_snoc _ _ _ Hl) as (l0 & j & -> & I & J). rewrite (V _ _ I J).
  specialize (B j J). rewrite divisor_big by exact B. pose proof micro_pos. field. lra.
Qed.
Example C59_identity_example : exists y, initial_kernel true false {| built := false; kernel := Some example_kernel |} = Ok y /\ same_entries example_kernel y.
Proof. apply (C59_identity example_kernel [2; 1]%nat 2); [reflexivity|lia|]. exact example_lengths. Qed.
(** The same without normalising every output channel on its own. *)
Theorem C59_identity_whole k : / 10 ^ 6 <= euclid (entries k) ->
  exists y, initial_kernel false false {| built := false; kernel := Some k |} = Ok y /\ same_entries k y.
Proof.
  intros B. destruct (initial_all k false) as (y & E & T & V). exists y. split; [exact E|]. split; [congruence|].
  intros l Hl. rewrite (V _ Hl). rewrite divisor_big by exact B. pose proof micro_pos. field. lra.
Qed.
Example C59_identity_whole_example : / 10 ^ 6 <= euclid (entries example_kernel).
Proof.
  assert (H : 1 <= euclid (entries example_kernel)).
  { rewrite <- sqrt_1. apply sqrt_le_1_alt. change (entries example_kernel) with [3; 5; 4; 12]. repeat rewrite Rsum_cons; rewrite Rsum_nil; lra. }
  apply Rle_trans with 1; [|exact H]. rewrite <- Rinv_1. apply Rinv_le_contravar; [lra|]. apply pow_R1_Rle. lra.
Qed.

(** With the exponential parametrisation the first kernel is longer by 10^-10 in every column, with the same direction. *)
Theorem C59_exponential k sh n : tshape k = sh ++ [n] -> (0 < n)%nat -> (forall j, (j < n)%nat -> / 10 ^ 6 <= euclid (column k sh j)) ->
  exists y, initial_kernel true true {| built := false; kernel := Some k |} = Ok y /\ tshape y = tshape k /\
    forall j, (j < n)%nat -> euclid (column y sh j) = euclid (column k sh j) + / 10 ^ 10 /\
      column y sh j = map (Rmult (1 + / 10 ^ 10 / euclid (column k sh j))) (column k sh j).
Proof.
  intros S N B. destruct (initial_channel k sh n true S N) as (y & E & T & V). exists y. split; [exact E|]. split; [congruence|].
  intros j J. specialize (B j J). pose proof micro_pos as M.
  assert (P : 0 < / 10 ^ 10) by (apply Rinv_0_lt_compat, pow_lt; lra).
  assert (H : column y sh j = map (Rmult (1 + / 10 ^ 10 / euclid (column k sh j))) (column k sh j)).
  { apply column_scale. intros l I. rewrite (V _ _ I J). rewrite divisor_big by exact B. generalize dependent (/ 10 ^ 10). intros. field. lra. }
  split; [|exact H]. rewrite H, euclid_scale. rewrite Rabs_pos_eq.
  - generalize dependent (/ 10 ^ 10). intros. field. lra.
  - apply Rplus_le_le_0_compat; [lra|]. apply Rlt_le, Rdiv_lt_0_compat; lra.
Qed.
Example C59_exponential_example : exists y, initial_kernel true true {| built := false; kernel := Some example_kernel |} = Ok y /\
  euclid (column y [2; 1]%nat 0) = 5 + / 10 ^ 10 /\ euclid (column y [2; 1]%nat 1) = 13 + / 10 ^ 10.
Proof.
  destruct (C59_exponential example_kernel [2; 1]%nat 2 eq_refl ltac:(lia) example_lengths) as (y & E & _ & H). exists y. split; [exact E|].
  rewrite (proj1 (H 0%nat ltac:(lia))), (proj1 (H 1%nat ltac:(lia))), (proj1 C59_columns), (proj2 C59_columns). unfold euclid. repeat rewrite Rsum_cons; rewrite Rsum_nil.
  split; f_equal; [replace (3 * 3 + (4 * 4 + 0)) with (5 * 5) by ring|replace (5 * 5 + (12 * 12 + 0)) with (13 * 13) by ring]; apply sqrt_square; lra.
Qed.

(** At any later time, with any values of the variables: column j of the kernel in use is g_j (or exp g_j) times the
    direction of column j of v, so its length is |g_j| (or exp g_j). *)
Theorem C59_column_norm k sh n e w v' g' : tshape k = sh ++ [n] -> (0 < n)%nat ->
  build true e {| built := false; kernel := Some k |} = Ok (Some w) ->
  tshape v' = sh ++ [n] -> length g' = n -> (forall j, (j < n)%nat -> / 10 ^ 6 <= euclid (column v' sh j)) ->
  exists y, compute_weights (Some (with_variables w v' g')) = Ok y /\ tshape y = tshape k /\
    forall j, (j < n)%nat -> let size := if e then exp (nth j g' 0) else nth j g' 0 in
      euclid (column y sh j) = Rabs size /\ column y sh j = map (Rmult (size / euclid (column v' sh j))) (column v' sh j).
Proof.
  intros S N Bd S' L B. destruct (build_axes _ _ _ _ _ _ S N Bd) as (A & X).
  destruct (weights_channel (with_variables w v' g') sh n S' L A) as (y & E & T & V). exists y. split; [exact E|]. split; [congruence|].
  intros j J size. specialize (B j J). pose proof micro_pos as M.
  assert (H : column y sh j = map (Rmult (size / euclid (column v' sh j))) (column v' sh j)).
  { apply column_scale. intros l I. rewrite (V _ _ I J). cbn [with_variables v g exponential_norm]. rewrite divisor_big by exact B. rewrite X. fold size. field. lra. }
  split; [|exact H]. rewrite H, euclid_scale. unfold Rdiv. rewrite Rabs_mult, (Rabs_pos_eq (/ _)).
  - field. lra.
  - left. apply Rinv_0_lt_compat. lra.
Qed.
(** g = (-7, 1/2): the columns of the trained kernel have lengths 7 and 1/2. *)
Example C59_trained_example : exists w y, build true false {| built := false; kernel := Some example_kernel |} = Ok (Some w) /\
  compute_weights (Some (with_variables w example_kernel [-7; / 2])) = Ok y /\ euclid (column y [2; 1]%nat 0) = 7 /\ euclid (column y [2; 1]%nat 1) = / 2.
Proof.
  eexists. pose proof (build_channel example_kernel [2; 1]%nat 2 false eq_refl ltac:(lia)) as B.
  destruct (C59_column_norm example_kernel [2; 1]%nat 2 false _ example_kernel [-7; / 2] eq_refl ltac:(lia) B eq_refl eq_refl example_lengths) as (y & E & _ & H).
  exists y. split; [exact B|]. split; [exact E|]. split.
  - rewrite (proj1 (H 0%nat ltac:(lia))). cbn [nth]. rewrite Rabs_left by lra. lra.
  - rewrite (proj1 (H 1%nat ltac:(lia))). cbn [nth]. rewrite Rabs_pos_eq by lra. lra.
Qed.
Theorem C59_whole_norm k sh n e w v' x : tshape k = sh ++ [n] -> (0 < n)%nat ->
  build false e {| built := false; kernel := Some k |} = Ok (Some w) ->
  tshape v' = sh ++ [n] -> / 10 ^ 6 <= euclid (entries v') ->
  exists y, compute_weights (Some (with_variables w v' [x])) = Ok y /\ tshape y = tshape k /\
    euclid (entries y) = Rabs (if e then exp x else x).
Proof.
  intros S N Bd S' B. destruct (build_axes _ _ _ _ _ _ S N Bd) as (A & X). cbv iota in A. rewrite <- S' in A.
  destruct (weights_all (with_variables w v' [x]) x eq_refl A) as (y & E & T & V). exists y. split; [exact E|]. cbn [with_variables v] in T. split; [congruence|].
  pose proof micro_pos as M. rewrite (entries_scale ((if e then exp x else x) / euclid (entries v')) v' y T).
  - rewrite euclid_scale. unfold Rdiv. rewrite Rabs_mult, (Rabs_pos_eq (/ _)).
    + field. lra.
    + left. apply Rinv_0_lt_compat. lra.
  - intros l I. rewrite (V _ I). cbn [with_variables v exponential_norm]. rewrite divisor_big by exact B. rewrite X. field. lra.
Qed.
Example C59_whole_norm_example : exists w y, build false true {| built := false; kernel := Some example_kernel |} = Ok (Some w) /\
  compute_weights (Some (with_variables w example_kernel [2])) = Ok y /\ euclid (entries y) = Rabs (exp 2).
Proof.
  destruct (build false true {| built := false; kernel := Some example_kernel |}) as [[w|]|] eqn:B; try discriminate B.
  destruct (C59_whole_norm example_kernel [2; 1]%nat 2 true w example_kernel 2 eq_refl ltac:(lia) B eq_refl C59_identity_whole_example) as (y & E & _ & H).
  exists w, y. split; [reflexivity|]. split; [exact E|exact H].
Qed.

(** Shorter columns are divided by 10^-6: the first kernel is shorter than the kernel by the factor 10^6 |column|, and at
    any later time the column is shorter than |g_j|. *)
Theorem C59_short_columns k sh n j : tshape k = sh ++ [n] -> (j < n)%nat -> euclid (column k sh j) <= / 10 ^ 6 ->
  exists y, initial_kernel true false {| built := false; kernel := Some k |} = Ok y /\
    column y sh j = map (Rmult (10 ^ 6 * euclid (column k sh j))) (column k sh j).
Proof.
  intros S J B. destruct (initial_channel k sh n false S ltac:(lia)) as (y & E & T & V). exists y. split; [exact E|].
  apply column_scale. intros l I. rewrite (V _ _ I J). rewrite divisor_small by exact B. field.
Qed.
Example C59_short_columns_example : let k := {| tshape := [2; 1; 1]%nat; tval := fun _ => 0 |} in
  tshape k = [2; 1]%nat ++ [1%nat] /\ (0 < 1)%nat /\ euclid (column k [2; 1]%nat 0) <= / 10 ^ 6.
Proof.
  split; [reflexivity|]. split; [lia|]. unfold euclid. change (column _ _ _) with [0; 0]. repeat rewrite Rsum_cons; rewrite Rsum_nil.
  replace (0 * 0 + (0 * 0 + 0)) with 0 by ring. rewrite sqrt_0. left. apply Rinv_0_lt_compat, pow_lt. lra.
Qed.
(** So the claim fails for non zero columns that are short. *)
Theorem C59_tiny_refuted : exists k y, tshape k = [1%nat; 1%nat] /\ euclid (column k [1%nat] 0) <> 0 /\
  initial_kernel true false {| built := false; kernel := Some k |} = Ok y /\ ~ same_entries k y.
Proof.
  set (k := {| tshape := [1%nat; 1%nat]; tval := fun _ => / 10 ^ 7 |}).
  assert (C : column k [1%nat] 0 = [/ 10 ^ 7]) by reflexivity.
  assert (P : 0 < / 10 ^ 7) by (apply Rinv_0_lt_compat, pow_lt; lra).
  assert (Q : euclid (column k [1%nat] 0) = / 10 ^ 7).
  { rewrite C. unfold euclid. rewrite Rsum_cons, Rsum_nil, Rplus_0_r. apply sqrt_square. lra. }
  destruct (C59_short_columns k [1%nat] 1 0 eq_refl ltac:(lia)) as (y & E & V).
  { rewrite Q. apply Rinv_le_contravar; [apply pow_lt; lra|]. apply Rle_pow; [lra|lia]. }
  exists k, y. split; [reflexivity|]. split; [rewrite Q; lra|]. split; [exact E|]. intros (_ & H).
  specialize (H [0%nat; 0%nat] ltac:(repeat constructor)). rewrite Q, C in V. cbn [column raster range seq flat_map map app] in V. injection V as V.
  change (tval k [0%nat; 0%nat]) with (/ 10 ^ 7) in H. rewrite V in H. revert H. cbn [pow]. lra.
Qed.

(** A layer that was built before it is wrapped, or has no kernel, does not work. *)
Theorem C59_unusable per e k : 
  initial_kernel per e {| built := true; kernel := k |} = Err AttributeError /\
  initial_kernel per e {| built := false; kernel := None |} = Err ValueError.
Proof. split; reflexivity. Qed.

Print Assumptions C59_identity.
Print Assumptions C59_identity_whole.
Print Assumptions C59_exponential.
Print Assumptions C59_column_norm.
Print Assumptions C59_whole_norm.
Print Assumptions C59_short_columns.
Print Assumptions C59_tiny_refuted.
Print Assumptions C59_unusable.
