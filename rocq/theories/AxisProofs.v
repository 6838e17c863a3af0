(** Lemmas about reductions along an axis. *)
From Coq Require Import List ZArith Arith Bool Reals Lra Lia.
From Verif Require Import Base Cplx OrderingModel OrderingSpec TensorModel TopologyModel AutoregressiveModel AxisModel AxisSpec.
Import ListNotations.
Local Open Scope nat_scope.

Lemma upd_upd {A} (l : list A) k a b : upd (upd l k a) k b = upd l k b.
Proof. revert k; induction l as [|h t IH]; intros [|k]; cbn; auto. now rewrite IH. Qed.

Lemma upd_self (l : list nat) k d : upd l k (nth k l d) = l.
Proof. revert k; induction l as [|h t IH]; intros [|k]; cbn; auto. now rewrite IH. Qed.

Lemma in_shape_length s l : in_shape s l -> length l = length s.
Proof. intros H. induction H; cbn; auto. Qed.

Lemma in_shape_upd s l k i : in_shape s l -> i < nth k s 0 -> in_shape s (upd l k i).
Proof.
  intros H. revert k. induction H as [|a n l s Ha H IH]; intros [|k] Hi; cbn in *; try lia.
  - constructor; auto. - constructor; auto. now apply IH.
Qed.

Lemma in_shape_nth s l k : in_shape s l -> k < length s -> nth k l 0 < nth k s 0.
Proof.
  intros H. revert k. induction H as [|a n l s Ha H IH]; intros [|k] Hk; cbn in *; try lia. apply IH. lia.
Qed.

Lemma broadcast_self s l : in_shape s l -> broadcast_loc s l = l.
Proof.
  unfold broadcast_loc. intros H. induction H as [|a n l s Ha H IH]; cbn [map2]; auto. rewrite IH. destruct (Nat.eqb_spec n 1); [|reflexivity].
  f_equal. lia.
Qed.

Lemma broadcast_upd s l k : in_shape s l -> k < length s -> broadcast_loc (upd s k 1) l = upd l k 0.
Proof.
  unfold broadcast_loc. intros H. revert k. induction H as [|a n l s Ha H IH]; intros k Hk; [cbn in Hk; lia|].
  destruct k as [|k]; cbn [upd map2].
  - f_equal. now apply broadcast_self.
  - rewrite IH by (cbn in Hk; lia). f_equal. destruct (Nat.eqb_spec n 1); lia.
Qed.

Lemma fiber_upd {V} k (x : tensor V) l i : fiber k x (upd l k i) = fiber k x l.
Proof. unfold fiber. apply map_ext. intros j. now rewrite upd_upd. Qed.

Lemma fiber_length {V} k (x : tensor V) l : length (fiber k x l) = nth k (tshape x) 0.
Proof. unfold fiber. now rewrite map_length, range_length. Qed.

Lemma reduced_value {V} (f : list V -> V) (x : tensor V) k l : in_shape (tshape x) l -> k < length (tshape x) ->
  f (fiber k x (broadcast_loc (upd (tshape x) k 1) l)) = f (fiber k x l).
Proof. intros H Hk. rewrite broadcast_upd by assumption. now rewrite fiber_upd. Qed.

(** The fiber of an elementwise function of [x] and its reduction. *)
Lemma fiber_broadcast (f : R -> R -> R) (g : list R -> R) (x : tensor R) k l : in_shape (tshape x) l -> k < length (tshape x) ->
  fiber k (broadcast_op f x {| tshape := upd (tshape x) k 1; tval := fun l => g (fiber k x l) |}) l =
  map (fun v => f v (g (fiber k x l))) (fiber k x l).
Proof.
  intros H Hk. unfold fiber at 1. cbn [broadcast_op tshape]. unfold fiber at 3. rewrite map_map. apply map_ext_in. intros i Hi.
  apply in_seq in Hi. cbn [broadcast_op tval]. cbn [tshape tval]. rewrite (reduced_value g x k (upd l k i)).
  - now rewrite fiber_upd.
  - apply in_shape_upd; [assumption|lia].
  - assumption.
Qed.

Lemma fiber_elementwise {V W} (f : V -> W) (x : tensor V) k l : fiber k (elementwise f x) l = map f (fiber k x l).
Proof. unfold fiber. cbn [elementwise tshape tval]. now rewrite map_map. Qed.

(** reduce_max is one of the entries; it does not change the softmax. *)
Lemma fold_exp_shift (m : R) (x : list R) : Rsum (fun v => v) (map (fun v => exp (v - m)) x) = (exp (- m) * Rsum exp x)%R.
Proof.
  rewrite Rsum_map, <- Rsum_scal. apply Rsum_ext. intros v _. unfold Rminus. rewrite exp_plus. ring.
Qed.

Lemma softmax_value axis k (x : tensor R) : axis_index axis (length (tshape x)) = Ok k -> k < length (tshape x) ->
  exists y, softmax_along axis x = Ok y /\ tshape y = tshape x /\
    forall l, in_shape (tshape x) l -> tval y l = (exp (tval x l) / Rsum exp (fiber k x l))%R.
Proof.
  intros EA Hk. unfold softmax_along, reduce_keepdims. rewrite EA. cbn [bind]. cbn [elementwise broadcast_op tshape]. rewrite EA. cbn [bind].
  eexists. split; [reflexivity|]. split; [reflexivity|]. intros l Hl. cbn [broadcast_op elementwise tval tshape].
  set (m := {| tshape := upd (tshape x) k 1; tval := fun l0 : loc => reduce_max (fiber k x l0) |}).
  assert (E1 : reduce_max (fiber k x (broadcast_loc (upd (tshape x) k 1) l)) = reduce_max (fiber k x l)) by now apply reduced_value.
  rewrite E1.
  change {| tshape := tshape x; tval := fun l0 : loc => exp (tval (broadcast_op Rminus x m) l0) |} with (elementwise exp (broadcast_op Rminus x m)).
  rewrite !fiber_elementwise.
  assert (E2 : fiber k (broadcast_op Rminus x m) (broadcast_loc (upd (tshape x) k 1) l) = fiber k (broadcast_op Rminus x m) l).
  { rewrite broadcast_upd by assumption. apply fiber_upd. }
  rewrite E2. unfold m. rewrite (fiber_broadcast Rminus reduce_max x k l Hl Hk). rewrite map_map. unfold reduce_sum. rewrite fold_exp_shift.
  set (M := reduce_max (fiber k x l)). unfold Rminus. rewrite exp_plus.
  unfold Rdiv. rewrite Rinv_mult. pose proof (exp_pos (- M)) as P.
  replace (exp (tval x l) * exp (- M) * (/ exp (- M) * / Rsum exp (fiber k x l)))%R
    with (exp (tval x l) * (exp (- M) * / exp (- M)) * / Rsum exp (fiber k x l))%R by ring.
  rewrite Rinv_r by lra. ring.
Qed.

(** The last axis. *)
Lemma axis_last rank : 0 < rank -> axis_index (-1) rank = Ok (rank - 1).
Proof.
  intros H. unfold axis_index. change (-1 <? 0)%Z with true. cbv iota. destruct (Z.ltb_spec (-1 + Z.of_nat rank) 0); [lia|].
  destruct (Z.leb_spec (Z.of_nat rank) (-1 + Z.of_nat rank)); [lia|]. cbn [orb]. f_equal. lia.
Qed.

Lemma upd_last {A} (l : list A) c i : upd (l ++ [c]) (length l) i = l ++ [i].
Proof. induction l as [|h t IH]; cbn; auto. now rewrite IH. Qed.

Lemma fiber_last {V} (x : tensor V) batch sp n b l c : tshape x = batch :: sp ++ [n] -> length l = length sp ->
  fiber (length (tshape x) - 1) x (b :: l ++ [c]) = map (feature x b l) (range n).
Proof.
  intros E L. unfold fiber. rewrite E. replace (length (batch :: sp ++ [n]) - 1) with (S (length l)).
  2:{ cbn [length]. rewrite app_length. cbn [length]. lia. }
  replace (nth (S (length l)) (batch :: sp ++ [n]) 0) with n.
  2:{ cbn [nth]. rewrite L, app_nth2, Nat.sub_diag by lia. reflexivity. }
  apply map_ext. intros i. cbn [upd]. now rewrite upd_last.
Qed.

Lemma shape_last batch sp n : last (batch :: sp ++ [n]) 0 = n.
Proof. change (batch :: sp ++ [n]) with ((batch :: sp) ++ [n]). apply last_last. Qed.

Lemma loc_last (b : nat) (l : loc) c : last (b :: l ++ [c]) 0 = c.
Proof. change (b :: l ++ [c]) with ((b :: l) ++ [c]). apply last_last. Qed.

Lemma in_full batch sp n b l c : b < batch -> in_shape sp l -> c < n -> in_shape (batch :: sp ++ [n]) (b :: l ++ [c]).
Proof. intros Hb Hl Hc. constructor; [assumption|]. apply Forall2_app; [assumption|]. repeat constructor; assumption. Qed.

Lemma mean_average n (f : nat -> R) : mean (map f (range n)) = average n f.
Proof. unfold mean, average. rewrite Rsum_map, map_length, range_length. reflexivity. Qed.

Lemma nth_map_range {A} (f : nat -> A) n c d : c < n -> nth c (map f (range n)) d = f c.
Proof.
  intros H. rewrite (nth_indep _ d (f 0)) by (rewrite map_length, range_length; lia). rewrite map_nth. unfold range. rewrite seq_nth by lia. reflexivity.
Qed.

(** LayerNormalization, entry by entry. *)
Lemma layer_normalization_value eps gamma beta (x : tensor R) batch sp n : tshape x = batch :: sp ++ [n] ->
  exists y, layer_normalization eps gamma beta x = Ok y /\ tshape y = tshape x /\
    forall b l c, b < batch -> in_shape sp l -> c < n ->
      feature y b l c = ((feature x b l c - average n (feature x b l)) / sqrt (variance n (feature x b l) + eps) * nth c gamma 0 + nth c beta 0)%R.
Proof.
  intros E. assert (R0 : 0 < length (tshape x)) by (rewrite E; cbn; lia).
  unfold layer_normalization, reduce_keepdims. rewrite (axis_last _ R0). cbn [bind]. cbn [elementwise broadcast_op tshape].
  rewrite (axis_last _ R0). cbn [bind]. eexists. split; [reflexivity|]. split; [reflexivity|].
  intros b l c Hb Hl Hc. unfold feature at 1. cbn [tval]. rewrite loc_last.
  set (k := length (tshape x) - 1). assert (Hk : k < length (tshape x)) by (unfold k; lia).
  pose proof (in_full batch sp n b l c Hb Hl Hc) as HI. rewrite <- E in HI.
  set (u := {| tshape := upd (tshape x) k 1; tval := fun l0 : loc => mean (fiber k x l0) |}).
  cbn [broadcast_op elementwise tval tshape].
  change {| tshape := tshape x; tval := fun l0 : loc => (tval (broadcast_op Rminus x u) l0 * tval (broadcast_op Rminus x u) l0)%R |}
    with (elementwise (fun v => v * v)%R (broadcast_op Rminus x u)).
  assert (E1 : tval u (broadcast_loc (tshape u) (b :: l ++ [c])) = average n (feature x b l)).
  { unfold u. cbn [tval tshape]. rewrite (reduced_value mean x k) by assumption. unfold k. rewrite (fiber_last x batch sp n b l c E).
    - apply mean_average. - now apply in_shape_length. }
  rewrite E1. rewrite fiber_elementwise.
  assert (E2 : fiber k (broadcast_op Rminus x u) (broadcast_loc (upd (tshape x) k 1) (b :: l ++ [c])) =
    map (fun v => (v - average n (feature x b l))%R) (map (feature x b l) (range n))).
  { rewrite broadcast_upd by assumption. rewrite fiber_upd. unfold u. rewrite (fiber_broadcast Rminus mean x k) by assumption.
    unfold k. rewrite (fiber_last x batch sp n b l c E) by now apply in_shape_length. now rewrite mean_average. }
  rewrite E2, !map_map. rewrite mean_average. unfold rsqrt, Rdiv.
  replace (average n (fun c0 : nat => ((feature x b l c0 - average n (feature x b l)) * (feature x b l c0 - average n (feature x b l)))%R))
    with (variance n (feature x b l)); [reflexivity|].
  unfold variance, average. f_equal. apply Rsum_ext. intros a _. ring.
Qed.

Lemma normalize_value p (x : tensor R) batch sp n : tshape x = batch :: sp ++ [n] ->
  exists y, normalize_in_log_space p x = Ok y /\ tshape y = tshape x /\
    forall b l c, b < batch -> in_shape sp l -> c < n -> feature y b l c = nth c (normalize_real p (map (feature x b l) (range n))) 0%R.
Proof.
  intros E. assert (R0 : 0 < length (tshape x)) by (rewrite E; cbn; lia).
  unfold normalize_in_log_space, reduce_keepdims. cbn [elementwise tshape]. rewrite (axis_last _ R0). cbn [bind].
  eexists. split; [reflexivity|]. split; [reflexivity|]. intros b l c Hb Hl Hc.
  set (k := length (tshape x) - 1). assert (Hk : k < length (tshape x)) by (unfold k; lia).
  pose proof (in_full batch sp n b l c Hb Hl Hc) as HI. rewrite <- E in HI.
  unfold feature at 1. cbn [broadcast_op elementwise tval tshape].
  change {| tshape := tshape x; tval := fun l0 : loc => (tval x l0 * p)%R |} with (elementwise (fun v => v * p)%R x).
  rewrite fiber_elementwise. rewrite broadcast_upd by assumption. rewrite fiber_upd. unfold k.
  rewrite (fiber_last x batch sp n b l c E) by now apply in_shape_length.
  unfold normalize_real. rewrite !map_map. rewrite nth_map_range by assumption. reflexivity.
Qed.

Lemma softmax_last_value axis (x : tensor R) batch sp n : tshape x = batch :: sp ++ [n] -> axis = (-1)%Z \/ axis = (Z.of_nat (length sp) + 1)%Z \/ sp = [] ->
  exists y, keras_softmax axis x = Ok y /\ tshape y = tshape x /\
    forall b l c, b < batch -> in_shape sp l -> c < n -> feature y b l c = (exp (feature x b l c) / Rsum (fun i => exp (feature x b l i)) (seq 0 n))%R.
Proof.
  intros E A. assert (R0 : length (tshape x) = length sp + 2) by (rewrite E; cbn [length]; rewrite app_length; cbn [length]; lia).
  assert (G : forall ax, axis_index ax (length (tshape x)) = Ok (length (tshape x) - 1) ->
    exists y, softmax_along ax x = Ok y /\ tshape y = tshape x /\
    forall b l c, b < batch -> in_shape sp l -> c < n -> feature y b l c = (exp (feature x b l c) / Rsum (fun i => exp (feature x b l i)) (seq 0 n))%R).
  { intros ax EA. destruct (softmax_value ax _ x EA ltac:(lia)) as (y & E1 & E2 & E3). exists y. split; [exact E1|]. split; [exact E2|].
    intros b l c Hb Hl Hc. unfold feature at 1. rewrite E3 by (rewrite E; now apply in_full).
    rewrite (fiber_last x batch sp n b l c E) by now apply in_shape_length. now rewrite Rsum_map. }
  assert (L : axis_index (-1) (length (tshape x)) = Ok (length (tshape x) - 1)) by (apply axis_last; lia).
  unfold keras_softmax. destruct (length (tshape x)) as [|[|[|r]]] eqn:ER; [lia|lia|now apply G|].
  destruct A as [A|[A|A]]; subst; [now apply G| |cbn in R0; lia]. apply G.
  unfold axis_index. destruct (Z.ltb_spec (Z.of_nat (length sp) + 1) 0); [lia|].
  destruct (Z.ltb_spec (Z.of_nat (length sp) + 1) 0); [lia|]. destruct (Z.leb_spec (Z.of_nat (S (S (S r)))) (Z.of_nat (length sp) + 1)); [lia|].
  cbn [orb]. f_equal. lia.
Qed.

(** From entries to locations. *)
Lemma location_shape {V} (x : tensor V) batch sp n l : tshape x = batch :: sp ++ [n] -> tshape (at_location x l) = batch :: [] ++ [n].
Proof. intros E. unfold at_location. cbn [tshape]. rewrite E, shape_last. reflexivity. Qed.

Lemma same_location {V} (y y' : tensor V) batch n l : tshape y' = batch :: [] ++ [n] -> hd 0 (tshape y) = batch -> last (tshape y) 0 = n ->
  (forall b c, b < batch -> c < n -> feature y b l c = feature y' b [] c) -> same_tensor (at_location y l) y'.
Proof.
  intros E1 E2 E3 H. split; [unfold at_location; cbn [tshape]; now rewrite E1, E2, E3|]. unfold at_location. cbn [tshape tval]. rewrite E2, E3.
  intros i Hi. inversion Hi as [|b B i' s' Hb Hi' X1 X2]; subst. inversion Hi' as [|c N i'' s'' Hc Hi'' X1 X2]; subst. inversion Hi''; subst.
  now apply (H b c).
Qed.

(** A tensor that is 0 at the first slice along the spatial axis [k] and ln t elsewhere. *)
Definition spike (batch : nat) (sp : list nat) (n k : nat) (t : R) : tensor R :=
  {| tshape := batch :: sp ++ [n]; tval := fun i => if nth (S k) i 0 =? 0 then 0%R else ln t |}.

Lemma spike_softmax batch sp n k t : k < length sp -> (0 < t)%R ->
  exists y, keras_softmax (Z.of_nat k + 1) (spike batch sp n k t) = Ok y /\ tshape y = tshape (spike batch sp n k t) /\
    forall b l c, b < batch -> in_shape sp l -> c < n -> nth k l 0 = 0 -> feature y b l c = (/ (1 + (INR (nth k sp 0%nat) - 1) * t))%R.
Proof.
  intros Hk Ht. set (x := spike batch sp n k t).
  assert (L : length (tshape x) = length sp + 2) by (cbn [x spike tshape length]; rewrite app_length; cbn [length]; lia).
  assert (EA : axis_index (Z.of_nat k + 1) (length (tshape x)) = Ok (S k)).
  { rewrite L. unfold axis_index. destruct (Z.ltb_spec (Z.of_nat k + 1) 0); [lia|]. destruct (Z.ltb_spec (Z.of_nat k + 1) 0); [lia|].
    destruct (Z.leb_spec (Z.of_nat (length sp + 2)) (Z.of_nat k + 1)); [lia|]. cbn [orb]. f_equal. lia. }
  destruct (softmax_value (Z.of_nat k + 1) (S k) x EA ltac:(lia)) as (y & E1 & E2 & E3). exists y.
  split; [unfold keras_softmax; destruct (length (tshape x)) as [|[|[|r]]]; [lia|lia|lia|exact E1]|]. split; [exact E2|].
  intros b l c Hb Hl Hc H0. pose proof (in_shape_length sp l Hl) as LL. unfold feature. rewrite E3 by (apply in_full; assumption).
  assert (X : tval x (b :: l ++ [c]) = 0%R) by (cbn [x spike tval nth]; rewrite app_nth1, H0 by lia; reflexivity).
  rewrite X, exp_0.
  assert (F : fiber (S k) x (b :: l ++ [c]) = map (fun j => if j =? 0 then 0%R else ln t) (range (nth k sp 0))).
  { unfold fiber. cbn [x spike tshape nth]. rewrite app_nth1 by assumption. apply map_ext. intros j. cbn [x spike tval upd nth].
    rewrite nth_upd_same by (rewrite app_length; cbn; lia). reflexivity. }
  rewrite F, Rsum_map. pose proof (in_shape_nth sp l k Hl Hk) as Hp. unfold range. destruct (nth k sp 0) as [|m]; [lia|].
  cbn [seq]. rewrite Rsum_cons. cbn [Nat.eqb]. rewrite exp_0.
  rewrite (Rsum_ext _ (fun _ => t)).
  - rewrite Rsum_const, seq_length, S_INR. unfold Rdiv. rewrite Rmult_1_l. f_equal. ring.
  - intros j Hj. apply in_seq in Hj. destruct (Nat.eqb_spec j 0); [lia|]. now apply exp_ln.
Qed.

Lemma broadcast_in_shape s l : in_shape s l -> broadcast_spatial_location s l = Ok l.
Proof.
  intros H. induction H as [|i n l s Hi H IH]; [reflexivity|]. cbn [broadcast_spatial_location]. rewrite IH. cbn [bind].
  apply Nat.ltb_lt in Hi. now rewrite Hi.
Qed.
